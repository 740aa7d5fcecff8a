(* C23, C25 and C28 again: what the calls outside vv_spec, fw_spec and fm_spec do after every history. *)
From Verif Require Import Base FlatModel FlatSpec FlatwSpec FlatwProofs.

(* vecvec: resize to n buckets followed by emplace_back, after every history: the new bucket starts with all the elements
   of the dropped buckets; from then on the vecvec answers as that list of lists. *)
Theorem C23_shrink_when A (dflt : A) ops l outs n xs ops2 l2 outs2 :
  shist A (vv_spec A dflt) [] ops = Some (l, outs) -> n <= length l ->
  shist A (vv_spec A dflt) (firstn n l ++ [concat (skipn n l) ++ xs]) ops2 = Some (l2, outs2) ->
  exists m, hist A (vv_step A dflt) vv_new (ops ++ VResize n :: VEmplace xs :: ops2) = Ok (m, outs ++ XNone :: XNone :: outs2) /\
    vv_all A m = Ok l2.
Proof. exact (shrink_history A dflt ops l outs n xs ops2 l2 outs2). Qed.
Print Assumptions C23_shrink_when.
Example C23_shrink_case : exists l outs, shist nat (vv_spec nat 0) [] [VEmplace [1]; VEmplace [2; 3]; VPush 0 9; VEmplace [4]] = Some (l, outs) /\ 1 <= length l /\
  shist nat (vv_spec nat 0) (firstn 1 l ++ [concat (skipn 1 l) ++ [5]]) [VAll; VPush 0 6; VAt 1] =
    Some ([[1; 9; 6]; [2; 3; 4; 5]], [XAll [[1; 9]; [2; 3; 4; 5]]; XNone; XList [2; 3; 4; 5]]).
Proof. eexists. eexists. split; [vm_compute; reflexivity|]. split; [cbn; repeat constructor|]. vm_compute. reflexivity. Qed.

(* at(size()), for an empty vecvec also front(), after every history: undefined once the vecvec has been given a bucket or
   resized since it was made or cleared; before that it throws, as it should. *)
Theorem C23_at_size_when A (dflt : A) ops l outs : shist A (vv_spec A dflt) [] ops = Some (l, outs) ->
  if unused true ops then l = [] /\ exists m, hist A (vv_step A dflt) vv_new (ops ++ [VAt 0]) = Ok (m, outs ++ [XThrow])
  else hist A (vv_step A dflt) vv_new (ops ++ [VAt (length l)]) = UB.
Proof.
  intros E. destruct (unused true ops) eqn:U.
  - exact (at_size_unused A dflt ops l outs E U).
  - exact (at_size_used A dflt ops l outs E U).
Qed.
Print Assumptions C23_at_size_when.
Example C23_at_size_case : unused true [VEmplace [1]; VPush 0 2] = false /\ unused true [VEmplace [1]; VClear; VSize] = true /\
  unused true [VEmplace [1]; VClear; @VResize nat 0] = false /\
  shist nat (vv_spec nat 0) [] [VEmplace [1]; VPush 0 2] = Some ([[1; 2]], [XNone; XNone]) /\
  shist nat (vv_spec nat 0) [] [VEmplace [1]; VClear; VSize] = Some ([], [XNone; XNone; XNum 0]) /\
  shist nat (vv_spec nat 0) [] [VEmplace [1]; VClear; VResize 0] = Some ([], [XNone; XNone; XNone]).
Proof. do 5 (split; [vm_compute; reflexivity|]). vm_compute. reflexivity. Qed.

(* fws_multimap: finish_map with elements behind the last finished key, after every history: they belong to that key from then on. *)
Theorem C25_unfinished_when A ops a b cur outs ops2 s2 outs2 :
  shist A (fw_spec A) ([], [], false) ops = Some ((a ++ [b], cur, false), outs) ->
  shist A (fw_spec A) (a ++ [b ++ cur], [], true) ops2 = Some (s2, outs2) ->
  exists m, hist A (fw_step A) fw_new (ops ++ FFinishMap :: ops2) = Ok (m, outs ++ XNone :: outs2).
Proof. exact (unfinished_history A ops a b cur outs ops2 s2 outs2). Qed.
Print Assumptions C25_unfinished_when.
Example C25_unfinished_case : exists outs,
  shist nat (fw_spec nat) ([], [], false) [FPush 1; FFinishKey; FPush 2; FFinishKey; FPush 3; FPush 4] = Some (([[1]] ++ [[2]], [3; 4], false), outs) /\
  shist nat (fw_spec nat) ([[1]] ++ [[2] ++ [3; 4]], [], true) [FGet 1; FAll] = Some (([[1]; [2; 3; 4]], [], true), [XList [2; 3; 4]; XAll [[1]; [2; 3; 4]]]).
Proof. eexists. split; [vm_compute; reflexivity|]. vm_compute. reflexivity. Qed.
(* without a finished key no entry holds them, although data_size() counts them *)
Theorem C25_unfinished_first_when A ops cur outs : shist A (fw_spec A) ([], [], false) ops = Some (([], cur, false), outs) ->
  exists m, hist A (fw_step A) fw_new (ops ++ [FFinishMap; FAll; FDataSize]) = Ok (m, outs ++ [XNone; XAll []; XNum (length cur)]).
Proof. exact (unfinished_first A ops cur outs). Qed.
Print Assumptions C25_unfinished_first_when.
Example C25_unfinished_first_case : exists outs, shist nat (fw_spec nat) ([], [], false) [FPush 1; FPush 2] = Some (([], [1; 2], false), outs).
Proof. eexists. vm_compute. reflexivity. Qed.
(* before finish_map the last finished key and every later one cannot be read, after every history; fw_spec answers for all others *)
Theorem C25_last_key_when A ops ks cur outs k : shist A (fw_spec A) ([], [], false) ops = Some ((ks, cur, false), outs) -> length ks <= k + 1 ->
  hist A (fw_step A) fw_new (ops ++ [FGet k]) = UB.
Proof. exact (last_key A ops ks cur outs k). Qed.
Print Assumptions C25_last_key_when.
Example C25_last_key_case : exists outs, shist nat (fw_spec nat) ([], [], false) [FPush 1; FFinishKey; FPush 2; FFinishKey; FGet 0] = Some (([[1]; [2]], [], false), outs) /\
  length [[1]; [2]] <= 1 + 1.
Proof. eexists. split; [vm_compute; reflexivity|]. cbn. auto. Qed.

(* flat_matrix: resize to 2^32 or more cells, after every history: the matrix has a cell inside its rows and columns that cannot be read. *)
Theorem C28_wraps_when A (dflt : A) ops s outs r c : shist A (fm_spec A dflt) (0, 0, []) ops = Some (s, outs) ->
  (r < 2 ^ 32)%N -> (c < 2 ^ 32)%N -> (2 ^ 32 <= r * c)%N ->
  exists i j, (i < r)%N /\ (j < c)%N /\ hist A (fm_step A dflt) fm_new (ops ++ [MResize r c; MGet i j]) = UB.
Proof.
  intros E Hr Hc Hw. exists (r * c mod W32 / c)%N, (r * c mod W32 mod c)%N. exact (wraps_history A dflt ops s outs r c E Hr Hc Hw).
Qed.
Print Assumptions C28_wraps_when.
Example C28_wraps_case : shist nat (fm_spec nat 0) (0, 0, []) [MMake 1 2 7] = Some ((1, 2, [[7; 7]]), [XNone]) /\ (2 ^ 32 <= 65537 * 65536)%N.
Proof. split; vm_compute; congruence. Qed.
