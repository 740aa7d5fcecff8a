(* C69: a failed allocation loses nothing. *)
From Verif Require Import Base FlatModel FlatSpec FlatProofs MmModel MmSpec PagedModel PagedSpec OomModel OomSpec OomProofs.

(* Full statement, for each of the containers: for every client and every choice of the allocations
   that fail, provided that the client keeps to the preconditions, no call is undefined, a call that throws
   bad_alloc leaves the container as it was, and every other call answers as if the failed calls had never been made:
     forall c, legal spec unchanged s0 c = true -> exists m t, orun step m0 c = Ok (m, t) /\
       explains spec unchanged s0 t.
   It holds for fws_multimap and paged_vecvec. *)
Theorem C69_fws_multimap (A : Type) (c : client (fw_op A) (vout A)) :
  legal (fw_spec A) unchanged ([], [], false) c = true ->
  exists m t, orun (fwo_step A) fw_new c = Ok (m, t) /\ explains (fw_spec A) unchanged ([], [], false) t.
Proof. apply fwo_history. Qed.
Theorem C69_paged_vecvec (A : Type) (dflt : A) (lmin lw : nat) (c : client (pv_op A) (vout A)) :
  1 <= lmin <= 15 -> 1 <= lw <= 2 ^ lmin -> legal (pv_spec A) unchanged [] c = true ->
  exists m t, orun (pvo_step A dflt lmin lw) (pv_new A lmin) c = Ok (m, t) /\ explains (pv_spec A) unchanged [] t.
Proof. intros H1 H2. apply pvo_history; auto. Qed.
(* what explains with unchanged states amount to: strike the failed calls, and the other calls answer as they do in
   the history without failures that is left *)
Theorem C69_struck (A S O : Type) (spec : S -> O -> option (S * vout A)) s t :
  explains spec unchanged s t -> exists s', shist A spec s (kept t) = Some (s', answers t).
Proof. apply strike. Qed.

(* mutable_fws_multimap: all but erase(key), which has removed the elements when it throws *)
Theorem C69_multimap_partial (A : Type) (dflt : A) (lmax : nat) (c : client (mm_op A) (vout A)) :
  lmax < 32 -> legal (mm_spec A lmax) (mmo_after A) ([], 0) c = true ->
  exists m t, orun (mmo_step A dflt lmax) (mm_new lmax) c = Ok (m, t) /\
    explains (mm_spec A lmax) (mmo_after A) ([], 0) t.
Proof. intros H. apply mmo_history; auto. Qed.

(* vecvec: as long as no failure hits the last allocation of a call that adds a bucket *)
Theorem C69_vecvec_partial (A : Type) (dflt : A) (c : client (vvo_op A) (vout A)) :
  legal (vvl_spec A dflt) (vvo_mild A) [] c = true ->
  exists m t, orun (vvo_step A dflt) vv_new c = Ok (m, t) /\ explains (vvl_spec A dflt) (vvo_mild A) [] t.
Proof. apply vvl_history. Qed.
(* vecvec with all failures but one (the elements of an initializer list): the elements of a bucket that could not be
   added stay behind, and turn up at the front of the next bucket that is added *)
Theorem C69_vecvec_stray_partial (A : Type) (dflt : A) (c : client (vvo_op A) (vout A)) :
  legal (vvo_spec A dflt) (vvo_after A dflt) ([], []) c = true ->
  exists m t, orun (vvo_step A dflt) vv_new c = Ok (m, t) /\
    explains (vvo_spec A dflt) (vvo_after A dflt) ([], []) t.
Proof. apply vvo_history. Qed.

(* ---- the full statement fails ---- *)
(* the third index finds no memory: the elements 2 and 3 stay behind and become part of the bucket {4} *)
Definition stray_client : client (vvo_op nat) (vout nat) :=
  line [(WOp (VEmplace [1]), None); (WOp (VEmplace [2; 3]), Some 2); (WOp (VEmplace [4]), None); (WOp VAll, None)].
Theorem C69_vecvec_stray_refuted : legal (vvl_spec nat 0) unchanged [] stray_client = true /\
  exists m t, orun (vvo_step nat 0) vv_new stray_client = Ok (m, t) /\
    map snd t = [Some XNone; None; Some XNone; Some (XAll [[1]; [2; 3; 4]])] /\
    ~ explains (vvl_spec nat 0) unchanged [] t.
Proof.
  split; [vm_compute; reflexivity|]. eexists. eexists. split; [vm_compute; reflexivity|]. split; [reflexivity|].
  intros H. apply strike in H as (s & H). vm_compute in H. discriminate.
Qed.
(* the same when the client tries again: the elements are there twice *)
Definition retry_client : client (vvo_op nat) (vout nat) :=
  retry [(WOp (VEmplace [1]), None); (WOp (VEmplace [2; 3]), Some 2); (WOp VAll, None)].
Theorem C69_vecvec_retry_refuted : legal (vvl_spec nat 0) unchanged [] retry_client = true /\
  exists m t, orun (vvo_step nat 0) vv_new retry_client = Ok (m, t) /\
    map snd t = [Some XNone; None; Some XNone; Some (XAll [[1]; [2; 3; 2; 3]])] /\
    ~ explains (vvl_spec nat 0) unchanged [] t.
Proof.
  split; [vm_compute; reflexivity|]. eexists. eexists. split; [vm_compute; reflexivity|]. split; [reflexivity|].
  intros H. apply strike in H as (s & H). vm_compute in H. discriminate.
Qed.
(* the elements of an initializer list find no memory: its bucket ends behind the elements, reading it is undefined *)
Definition init_client (ops : list (vvo_op nat * failure)) : client (vvo_op nat) (vout nat) :=
  line ([(WInit [1], None); (WInit [2; 3], Some 2); (WOp VSize, None)] ++ ops).
Theorem C69_vecvec_init_list_refuted : legal (vvl_spec nat 0) unchanged [] (init_client [(WOp VBack, None)]) = true /\
  (exists t, orun (vvo_step nat 0) vv_new (init_client []) = Ok (VV [1] [0; 1; 3], t) /\ map snd t = [Some XNone; None; Some (XNum 2)]) /\
  orun (vvo_step nat 0) vv_new (init_client [(WOp VBack, None)]) = UB.
Proof.
  split; [vm_compute; reflexivity|]. split; [|vm_compute; reflexivity].
  eexists. split; [vm_compute; reflexivity|]. reflexivity.
Qed.
(* erase(key) throws, but the elements are gone *)
Definition erase_client : client (mm_op nat) (vout nat) :=
  line [(BTouch 0, None); (BPush 0 7, None); (BEraseKey 0, Some 1); (BAt 0, None)].
Theorem C69_multimap_erase_refuted : legal (mm_spec nat 4) unchanged ([], 0) erase_client = true /\
  exists m t, orun (mmo_step nat 0 4) (mm_new 4) erase_client = Ok (m, t) /\
    map snd t = [Some XNone; Some XNone; None; Some (XList [])] /\ ~ explains (mm_spec nat 4) unchanged ([], 0) t.
Proof.
  split; [vm_compute; reflexivity|]. eexists. eexists. split; [vm_compute; reflexivity|]. split; [reflexivity|].
  intros H. apply strike in H as (s & H). vm_compute in H. discriminate.
Qed.
(* a bucket that moved and could not be put on the list of free buckets is lost: no bucket will use its storage again *)
Definition lost_client : client (mm_op nat) (vout nat) :=
  line [(BTouch 1, None); (BPush 0 7, None); (BPush 1 8, None); (BPush 0 9, Some 1); (BAll, None)].
Theorem C69_multimap_storage_refuted : legal (mm_spec nat 4) (mmo_after nat) ([], 0) lost_client = true /\
  exists m t, orun (mmo_step nat 0 4) (mm_new 4) lost_client = Ok (m, t) /\
    map snd t = [Some XNone; Some XNone; Some XNone; None; Some (XAll [[7]; [8]])] /\
    0 < length (mm_data m) /\ owned nat m 0 = false.
Proof.
  split; [vm_compute; reflexivity|]. eexists. eexists. split; [vm_compute; reflexivity|]. split; [reflexivity|].
  split; [vm_compute; lia|]. vm_compute. reflexivity.
Qed.

(* ---- concrete clients that meet the hypotheses ---- *)
Example fws_example : let c := retry [(FPush 1, None); (FPush 2, Some 0); (FFinishKey, Some 0); (FFinishMap, Some 0); (FAll, None)] in
  legal (fw_spec nat) unchanged ([], [], false) c = true /\
  exists m t, orun (fwo_step nat) fw_new c = Ok (m, t) /\
    map snd t = [Some XNone; None; Some XNone; None; Some XNone; None; Some XNone; Some (XAll [[1; 2]])].
Proof. split; [vm_compute; reflexivity|]. eexists. eexists. split; [vm_compute; reflexivity|]. reflexivity. Qed.
Example paged_example : let c := line [(PEmplace [1; 2; 3], None); (PEmplace [4], Some 0); (PEmplace [5], Some 1); (PEmplace [6], None);
    (PPush 1 7, None); (PPush 1 8, Some 0); (PPush 1 8, None); (PResize 3, Some 1); (PInsert 0 [9], Some 1); (PAll, None)] in
  legal (pv_spec nat) unchanged [] c = true /\
  exists m t, orun (pvo_step nat 0 1 2) (pv_new nat 1) c = Ok (m, t) /\
    map snd t = [Some XNone; None; None; Some XNone; Some XNone; None; Some XNone; None; None; Some (XAll [[1; 2; 3]; [6; 7; 8]])].
Proof. split; [vm_compute; reflexivity|]. eexists. eexists. split; [vm_compute; reflexivity|]. reflexivity. Qed.
(* every point of failure of grow_bucket *)
Example multimap_example : let c := retry [(BTouch 1, Some 0); (BPush 0 7, Some 0); (BPush 1 8, None);
    (BPush 0 9, Some 1); (BPush 1 3, Some 0); (BResize 1 4 5, None); (BEraseKey 1, None); (BInsert 0 1 6, Some 1);
    (BEraseKey 0, Some 1); (BPush 1 2, None); (BAll, None); (BCount, None)] in
  legal (mm_spec nat 4) (mmo_after nat) ([], 0) c = true /\
  exists m t, orun (mmo_step nat 0 4) (mm_new 4) c = Ok (m, t) /\
    length (filter (fun o => match o with None => true | Some _ => false end) (map snd t)) = 6 /\
    answers (skipn 16 t) = [XAll [[]; [2]]; XNum 8].
Proof. split; [vm_compute; reflexivity|]. eexists. eexists. split; [vm_compute; reflexivity|]. split; vm_compute; reflexivity. Qed.
Example vecvec_example : let c := line [(WOp (VEmplace [1]), Some 0); (WOp (VEmplace [1]), Some 1); (WOp (VEmplace [1]), None);
    (WInit [2], Some 1); (WInit [2], None); (WOp (VPush 0 3), Some 0); (WOp (VPush 0 3), None); (WOp (VGrow 1 3 9), Some 0);
    (WOp (VResize 9), Some 0); (WOp (VAddSized 2), None); (WOp VAll, None)] in
  legal (vvl_spec nat 0) (vvo_mild nat) [] c = true /\
  exists m t, orun (vvo_step nat 0) vv_new c = Ok (m, t) /\ last (map snd t) None = Some (XAll [[1; 3]; [2]; [0; 0]]).
Proof. split; [vm_compute; reflexivity|]. eexists. eexists. split; [vm_compute; reflexivity|]. reflexivity. Qed.
Example stray_example : let c := line [(WOp (VEmplace [1]), None); (WOp (VEmplace [2; 3]), Some 2); (WOp (VAddSized 1), Some 2); (WOp (VPush 0 5), None);
    (WOp VAll, None); (WOp (VResize 4), None); (WOp VAll, None)] in
  legal (vvo_spec nat 0) (vvo_after nat 0) ([], []) c = true /\
  exists m t, orun (vvo_step nat 0) vv_new c = Ok (m, t) /\
    answers t = [XNone; XNone; XAll [[1; 5]]; XNone; XAll [[1; 5]; [2; 3; 0]; []; []]].
Proof. split; [vm_compute; reflexivity|]. eexists. eexists. split; [vm_compute; reflexivity|]. reflexivity. Qed.

(* flat_matrix: what is missing is resize. The theorem says what holds instead: after a resize that threw, and until
   resize or an assignment sets the size again, no cell may be touched; from then on the failure is forgotten (the
   cells that the matrix had before it are still there to be kept). *)
Theorem C69_flat_matrix_partial (A : Type) (dflt : A) (c : client (fm_op A) (vout A)) :
  legal (fmo_spec A dflt) (fmo_after A) (0, 0, [], false) c = true ->
  exists m t, orun (fmo_step A dflt) fm_new c = Ok (m, t) /\ explains (fmo_spec A dflt) (fmo_after A) (0, 0, [], false) t.
Proof. apply fmo_history. Qed.
(* resize stores the new size before the entries grow: afterwards the checked access does not throw for a cell that is
   not there, and with one more column than before a cell that is there has moved *)
Theorem C69_flat_matrix_resize_refuted :
  let c := line [(MMake 2 2 7, None); (MSet 1 0 5, None); (MResize 9 3, Some 0); (MAt 8 0, None)] in
  let d := line [(MMake 2 2 7, None); (MSet 1 0 5, None); (MResize 9 3, Some 0); (MGet 1 0, None)] in
  legal (fm_spec nat 0) unchanged (0, 0, []) c = true /\ orun (fmo_step nat 0) fm_new c = UB /\
  legal (fm_spec nat 0) unchanged (0, 0, []) d = true /\
  exists m t, orun (fmo_step nat 0) fm_new d = Ok (m, t) /\ last (map snd t) None = Some (XVal 7).
Proof. split; [vm_compute; reflexivity|]. split; [vm_compute; reflexivity|]. split; [vm_compute; reflexivity|].
  eexists. eexists. split; [vm_compute; reflexivity|]. reflexivity. Qed.

(* nvec: proved for calls that fail at their first growth point; the containers whose emplace_back returned are those
   that can be read back, in their order. Missing: the later growth points, for which it is false. *)
Theorem C69_nvec_partial (A : Type) (n : nat) (cs : list (nest A * failure)) :
  0 < n -> Forall (depth A n) (map fst cs) -> Forall (fun cf => snd cf = None \/ snd cf = Some 0) cs ->
  exists m, nvo_build A n (nv_new n) cs = Ok (m, map (fun cf => match snd cf with None => true | Some _ => false end) cs) /\
    nv_size A n m = Ok (length (survivors cs)) /\
    forall k path c c', nth_error (survivors cs) k = Some c -> sub A c path = Some c' ->
      nv_path A n m (k :: path) = Ok c' /\ nv_path_size A n m (k :: path) = Ok (width A c').
Proof.
  intros H D F. destruct (nvo_build_ok A n cs H D F (nv_new n) []) as (m & E & B & _); [left; auto|].
  destruct (nvec_ok A n (survivors cs) H) as (m' & B' & K).
  { apply Forall_forall. intros c I. unfold survivors in I. apply in_map_iff in I as (x & <- & I). apply filter_In in I as (I & _).
    rewrite Forall_forall in D. apply D, in_map. auto. }
  rewrite B in B'. injection B' as <-. exists m. split; auto.
Qed.
(* a failure after the index of the outermost level has grown: the size counts an entry that cannot be read *)
Theorem C69_nvec_size_refuted :
  exists m, nvo_build nat 2 (nv_new 2) [(Node [Leaf [1]], Some 3)] = Ok (m, [false]) /\
    nv_size nat 2 m = Ok 1 /\ nv_path nat 2 m [0] = UB.
Proof. eexists. split; [vm_compute; reflexivity|]. split; vm_compute; reflexivity. Qed.
(* a failure between the zeros of the levels: trying again returns, but the container that was added is not counted *)
Theorem C69_nvec_retry_refuted :
  exists m, nvo_build nat 2 (nv_new 2) [(Node [Leaf [1]], Some 1); (Node [Leaf [1]], None)] = Ok (m, [false; true]) /\
    nv_size nat 2 m = Ok 0.
Proof. eexists. split; [vm_compute; reflexivity|]. vm_compute. reflexivity. Qed.
(* a failure of the elements: the bucket that was half added claims elements that are not there, or that the next
   bucket brings, and the next bucket ends before it begins *)
Theorem C69_nvec_elements_refuted :
  exists m, nvo_build nat 1 (nv_new 1) [(Leaf [1], None); (Leaf [2; 3], Some 1); (Leaf [4], None)] = Ok (m, [true; false; true]) /\
    nv_size nat 1 m = Ok 3 /\ nv_path nat 1 m [1] = UB /\ nv_path nat 1 m [2] = UB.
Proof. eexists. split; [vm_compute; reflexivity|]. split; [vm_compute; reflexivity|]. split; vm_compute; reflexivity. Qed.

Example matrix_example : let c := line [(MMake 2 2 7, Some 0); (MMake 2 2 7, None); (MSet 1 0 5, None); (MResize 9 9, Some 0); (MResize 9 9, Some 0);
    (MResize 2 2, None); (MGet 1 0, None); (MMake 3 3 1, Some 0); (MGet 0 0, None); (MAt 2 0, None); (MResize 3 2, None); (MGet 2 1, None)] in
  legal (fmo_spec nat 0) (fmo_after nat) (0, 0, [], false) c = true /\
  exists m t, orun (fmo_step nat 0) fm_new c = Ok (m, t) /\
    answers t = [XNone; XNone; XNone; XVal 5; XVal 7; XThrow; XNone; XVal 0].
Proof. split; [vm_compute; reflexivity|]. eexists. eexists. split; [vm_compute; reflexivity|]. reflexivity. Qed.
Example nvec_example : exists m, nvo_build nat 2 (nv_new 2) [(Node [Leaf [1]], Some 0); (Node [Leaf [1]; Leaf []], None); (Node [Leaf [2]], Some 0);
    (Node [Leaf [3; 4]], None)] = Ok (m, [false; true; false; true]) /\ nv_size nat 2 m = Ok 2 /\ nv_path nat 2 m [1; 0] = Ok (Leaf [3; 4]).
Proof. eexists. split; [vm_compute; reflexivity|]. split; vm_compute; reflexivity. Qed.

Print Assumptions C69_fws_multimap.
Print Assumptions C69_paged_vecvec.
Print Assumptions C69_struck.
Print Assumptions C69_multimap_partial.
Print Assumptions C69_vecvec_partial.
Print Assumptions C69_vecvec_stray_partial.
Print Assumptions C69_vecvec_stray_refuted.
Print Assumptions C69_vecvec_retry_refuted.
Print Assumptions C69_vecvec_init_list_refuted.
Print Assumptions C69_multimap_erase_refuted.
Print Assumptions C69_multimap_storage_refuted.
Print Assumptions C69_flat_matrix_partial.
Print Assumptions C69_flat_matrix_resize_refuted.
Print Assumptions C69_nvec_partial.
Print Assumptions C69_nvec_size_refuted.
Print Assumptions C69_nvec_retry_refuted.
Print Assumptions C69_nvec_elements_refuted.
