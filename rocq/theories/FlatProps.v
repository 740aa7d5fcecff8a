(* C23 vecvec, C25 fws_multimap, C27 nvec, C28 flat_matrix. *)
From Verif Require Import Base FlatModel FlatSpec FlatProofs.

(* ---- C23 ---- *)
(* Every history of calls inside the preconditions of vv_spec answers as a list of lists does. Missing
   from the full property: at(size()), and shrinking past non-empty buckets, both refuted below. *)
Theorem C23_vecvec_partial A (dflt : A) ops l outs :
  shist A (vv_spec A dflt) [] ops = Some (l, outs) ->
  exists m, hist A (vv_step A dflt) vv_new ops = Ok (m, outs) /\ vv_all A m = Ok l.
Proof. exact (vv_history A dflt ops l outs). Qed.
Print Assumptions C23_vecvec_partial.
Example C23_case :
  shist nat (vv_spec nat 0) [] [VEmplace [1; 2]; VEmplace []; VEmplace [3]; VPush 1 7; VGrow 0 4 9; VSet 2 0 8; VAt 9; VAt 1; VBack; VAll; VResize 5; VSize]
  = Some ([[1; 2; 9; 9]; [7]; [8]; []; []],
      [XNone; XNone; XNone; XNone; XNone; XNone; XThrow; XList [7]; XList [8]; XAll [[1; 2; 9; 9]; [7]; [8]]; XNone; XNum 5]).
Proof. reflexivity. Qed.

(* at(i) throws exactly when i is out of range: false for i = size(), where the check passes and the
   bucket's end is read behind the offsets *)
Theorem C23_at_size_refuted :
  exists m, hist nat (vv_step nat 0) vv_new [VEmplace [1]; VEmplace [2]] = Ok (m, [XNone; XNone]) /\
    vv_size nat m = 2 /\ vv_at nat m 2 = UB.
Proof. eexists. split; [reflexivity|split; reflexivity]. Qed.
Print Assumptions C23_at_size_refuted.
(* front() of an emptied vecvec does not throw *)
Theorem C23_front_refuted :
  exists m, hist nat (vv_step nat 0) vv_new [VEmplace [1]; VResize 0] = Ok (m, [XNone; XNone]) /\
    vv_size nat m = 0 /\ vv_front nat m = UB.
Proof. eexists. split; [reflexivity|split; reflexivity]. Qed.
Print Assumptions C23_front_refuted.
(* resize to fewer buckets keeps the dropped buckets' elements: the next bucket starts with them *)
Theorem C23_shrink_refuted :
  exists m, hist nat (vv_step nat 0) vv_new [VEmplace [1]; VEmplace [2; 3]; VResize 1; VEmplace [4]; VAll]
    = Ok (m, [XNone; XNone; XNone; XNone; XAll [[1]; [2; 3; 4]]]).
Proof. eexists. reflexivity. Qed.
Print Assumptions C23_shrink_refuted.

(* ---- C25 ---- *)
(* Every key, in the order of their creation, holds exactly the elements pushed before it was finished. *)
Theorem C25_fws_multimap_partial A ops s outs :
  shist A (fw_spec A) ([], [], false) ops = Some (s, outs) ->
  exists m, hist A (fw_step A) fw_new ops = Ok (m, outs).
Proof. intros E. destruct (fw_history A ops s outs E) as (m & H & _). exact (ex_intro _ m H). Qed.
Print Assumptions C25_fws_multimap_partial.
Example C25_case :
  shist nat (fw_spec nat) ([], [], false)
    [FPush 1; FPush 2; FCurrentKey; FFinishKey; FFinishKey; FPush 3; FFinishKey; FGet 0; FFinishMap; FGet 0; FGet 1; FGet 2; FAll; FIndexSize]
  = Some (([[1; 2]; []; [3]], [], true),
      [XNone; XNone; XNum 0; XNone; XNone; XNone; XNone; XList [1; 2]; XNone; XList [1; 2]; XList []; XList [3];
       XAll [[1; 2]; []; [3]]; XNum 4]).
Proof. reflexivity. Qed.
(* elements pushed after the last finish_key end up in the last finished key *)
Theorem C25_unfinished_refuted :
  exists m, hist nat (fw_step nat) fw_new [FPush 1; FFinishKey; FPush 2; FFinishMap; FAll]
    = Ok (m, [XNone; XNone; XNone; XNone; XAll [[1; 2]]]).
Proof. eexists. reflexivity. Qed.
Print Assumptions C25_unfinished_refuted.
(* a finished key cannot be read before the next one is finished *)
Theorem C25_last_key_refuted :
  hist nat (fw_step nat) fw_new [FPush 1; FFinishKey; FGet 0] = UB.
Proof. reflexivity. Qed.
Print Assumptions C25_last_key_refuted.
(* iterating over a map that was never finished reads behind it *)
Theorem C25_empty_refuted : hist nat (fw_step nat) fw_new [FAll] = UB.
Proof. reflexivity. Qed.
Print Assumptions C25_empty_refuted.
(* it - n moves the iterator forwards, for every n > 0 *)
Theorem C25_iterator_minus_refuted : forall i n, 0 < n -> n <= i -> fw_it_minus i n <> i - n.
Proof. unfold fw_it_minus. lia. Qed.
Print Assumptions C25_iterator_minus_refuted.
Example C25_iterator_case : 0 < 1 /\ 1 <= 1 /\ fw_it_minus 1 1 = 2.
Proof. split; [|split]; auto. Qed.

(* ---- C27 ---- *)
(* An nvec of any nesting depth n gives back, along every path of operator[], by iteration and by size(),
   the containers that were put in. *)
Theorem C27_nvec A n cs : 0 < n -> Forall (depth A n) cs ->
  exists m, nv_build A n (nv_new n) cs = Ok m /\
    nv_size A n m = Ok (length cs) /\
    forall k path c c', nth_error cs k = Some c -> sub A c path = Some c' ->
      nv_path A n m (k :: path) = Ok c' /\ nv_path_size A n m (k :: path) = Ok (width A c').
Proof. exact (nvec_ok A n cs). Qed.
Print Assumptions C27_nvec.
Definition C27_ex : list (nest nat) :=
  [Node [Node [Leaf [1; 2]; Leaf []]; Node []]; Node []; Node [Node [Leaf [3]]]].
Example C27_case : Forall (depth nat 3) C27_ex /\
  exists m, nv_build nat 3 (nv_new 3) C27_ex = Ok m /\ nv_path nat 3 m [0; 0] = Ok (Node [Leaf [1; 2]; Leaf []]) /\
    nv_path nat 3 m [2; 0; 0] = Ok (Leaf [3]).
Proof. split; [repeat constructor|]. eexists. split; [reflexivity|]. split; reflexivity. Qed.
(* at(k, i) and size(k, i) of a two-level nvec, for existing k and i *)
Theorem C27_two_levels_partial A cs : Forall (depth A 2) cs ->
  exists m, nv_build A 2 (nv_new 2) cs = Ok m /\
    forall k i c c', nth_error cs k = Some c -> sub A c [i] = Some c' ->
      nv_at2 A m k i = Ok (elems A c') /\ nv_size_of A 2 m k [i] = Ok (width A c').
Proof. exact (nvec2_ok A cs). Qed.
Print Assumptions C27_two_levels_partial.
Definition C27_ex2 : list (nest nat) := [Node [Leaf [1; 2]; Leaf []; Leaf [3]]; Node []; Node []; Node []; Node [Leaf [4]]].
Example C27_case2 : Forall (depth nat 2) C27_ex2 /\ sub nat (nth 0 C27_ex2 (Leaf [])) [2] = Some (Leaf [3]).
Proof. split; [repeat constructor|reflexivity]. Qed.
(* size(k) checks k against the wrong level: an existing k is refused *)
Theorem C27_size_refuted :
  exists m, nv_build nat 2 (nv_new 2) [Node []; Node []] = Ok m /\
    nv_size nat 2 m = Ok 2 /\ nv_path_size nat 2 m [1] = Ok 0 /\ nv_size_of nat 2 m 1 [] = Throw.
Proof. eexists. split; [reflexivity|]. repeat split; reflexivity. Qed.
Print Assumptions C27_size_refuted.
(* at(size(), 0) passes the check *)
Theorem C27_at_refuted :
  exists m, nv_build nat 2 (nv_new 2) [Node [Leaf [1]]] = Ok m /\ nv_size nat 2 m = Ok 1 /\ nv_at2 nat m 1 0 = UB.
Proof. eexists. split; [reflexivity|]. split; reflexivity. Qed.
Print Assumptions C27_at_refuted.
(* with three levels size(k, i) is not the size of [k][i] *)
Theorem C27_size3_refuted :
  exists m, nv_build nat 3 (nv_new 3) [Node [Node [Leaf [1]; Leaf [2]]]; Node [Node [Leaf [3]]; Node []]] = Ok m /\
    nv_path_size nat 3 m [1; 0] = Ok 1 /\ nv_size_of nat 3 m 1 [0] = Ok 0.
Proof. eexists. split; [reflexivity|]. split; reflexivity. Qed.
Print Assumptions C27_size3_refuted.

(* ---- C28 ---- *)
(* Every history of calls answers as a list of rows does, as long as rows * columns < 2^32: writing a cell
   changes that cell only, and at(i) throws exactly when there is no row i. *)
Theorem C28_flat_matrix_partial A (dflt : A) ops s outs :
  shist A (fm_spec A dflt) (0, 0, []) ops = Some (s, outs) ->
  exists m, hist A (fm_step A dflt) fm_new ops = Ok (m, outs).
Proof. exact (fm_history A dflt ops s outs). Qed.
Print Assumptions C28_flat_matrix_partial.
Example C28_case :
  shist nat (fm_spec nat 0) (0, 0, []) [MMake 2 3 7; MSet 1 0 5; MGet 0 2; MGet 1 0; MAt 2 0; MResize 3 3; MGet 1 0; MGet 2 2; MReset 4; MAt 2 1]
  = Some ((3, 3, [[4; 4; 4]; [4; 4; 4]; [4; 4; 4]]), [XNone; XNone; XVal 7; XVal 5; XThrow; XNone; XVal 5; XVal 0; XNone; XVal 4]).
Proof. vm_compute. reflexivity. Qed.
(* what resize means while the number of columns stays: every remaining cell keeps its value *)
Theorem C28_resize_keeps A (dflt : A) r c (rows : list (list A)) i j :
  Forall (fun x => length x = c) rows -> i < length rows -> i < r -> j < c ->
  nth j (nth i (m_resize A dflt r c rows) []) dflt = nth j (nth i rows []) dflt.
Proof. exact (resize_keeps A dflt r c rows i j). Qed.
Print Assumptions C28_resize_keeps.
Example C28_resize_case : m_resize nat 0 3 2 [[1; 2]; [3; 4]] = [[1; 2]; [3; 4]; [0; 0]].
Proof. reflexivity. Qed.
(* with another number of columns the cells move *)
Theorem C28_resize_moves_refuted :
  exists m, hist nat (fm_step nat 0) fm_new [MMake 2 2 1; MSet 1 0 5; MResize 2 3; MGet 1 0; MGet 0 2]
    = Ok (m, [XNone; XNone; XNone; XVal 1; XVal 5]).
Proof. eexists. vm_compute. reflexivity. Qed.
Print Assumptions C28_resize_moves_refuted.
(* the number of cells is computed in 32 bits: 2^16 rows of 2^16 columns have no cells *)
Theorem C28_wraps_refuted :
  exists m, hist nat (fm_step nat 0) fm_new [MResize 65536 65536] = Ok (m, [XNone]) /\
    fm_rows m = 65536%N /\ fm_cols m = 65536%N /\ fm_get nat m 1 1 = UB.
Proof. eexists. split; [vm_compute; reflexivity|]. repeat split; vm_compute; reflexivity. Qed.
Print Assumptions C28_wraps_refuted.
