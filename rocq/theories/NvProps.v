(* C27, continued: programs that mix emplace_back with reads and writes of the elements of an nvec; and C66 for nvec. *)
From Verif Require Import Base FlatModel FlatSpec FlatProofs AliasModel NvModel NvSpec NvProofs.

(* Every program over an nvec of any depth n that keeps to the preconditions answers as it does over a list of nested
   lists, with no undefined behaviour, and the container finally reads as that list. *)
Theorem C27_nvec_programs (A : Type) (n : nat) (ops : list (nv_op A)) l outs :
  0 < n -> nv_hist A n [] ops = Some (l, outs) ->
  exists m, nv_run A n (nv_new n) ops = Ok (m, outs) /\ nv_size A n m = Ok (length l) /\
    forall k c, nth_error l k = Some c -> nv_path A n m [k] = Ok c.
Proof.
  intros Hn H. destruct (run_ok A n Hn ops (nv_new n) [] l outs (NI_new A n) H) as (m & E & R & _). exists m. split; [exact E|].
  split; [apply size_ok; auto|]. intros k c Hk. apply (below_ok A n m l k [] c Hn R). unfold below. rewrite Hk. reflexivity.
Qed.
(* the elements of other buckets, and the shape of all, are untouched by a write *)
Theorem C27_nvec_write_apart (A : Type) (n : nat) (ops : list (nv_op A)) l outs m k path j x m' :
  0 < n -> nv_hist A n [] ops = Some (l, outs) -> nv_run A n (nv_new n) ops = Ok (m, outs) ->
  inner A l k path <> None -> nv_step A n m (NSet k path j x) = Ok (m', YNone) ->
  forall k' path' xs, inner A l k' path' = Some xs -> (k', path') <> (k, path) ->
    nv_path A n m' (k' :: path') = Ok (Leaf xs).
Proof. apply write_apart. Qed.
Print Assumptions C27_nvec_programs.
Print Assumptions C27_nvec_write_apart.

Example nvec_programs_case : nv_hist nat 3 [] [NEmplace (Node [Node [Leaf [1; 2]; Leaf []]]); NSet 0 [0; 0] 1 7; NEmplace (Node []); NFill 0 [0; 0] 5;
    NEmplace (Node [Node []; Node [Leaf [3]; Leaf [4; 6]]]); NSetAt 2 [1; 1] 0 8; NSetAt 2 [1; 1] 2 8; NBack 2 [1; 1]; NFront 2 [1; 1]; NAt 0 [0; 0] 2;
    NGet 0 [0; 0] 1; NWidth 2 [1]; NSize; NLast; NRead 0 []]
  = Some ([Node [Node [Leaf [5; 5]; Leaf []]]; Node []; Node [Node []; Node [Leaf [3]; Leaf [8; 6]]]],
    [YNone; YNone; YNone; YNone; YNone; YNone; YThrow; YVal 6; YVal 8; YThrow; YVal 5; YNum 2; YNum 3; YNest (Node [Node []; Node [Leaf [3]; Leaf [8; 6]]]);
     YNest (Node [Node [Leaf [5; 5]; Leaf []]])]).
Proof. reflexivity. Qed.

(* C66 for nvec: after any program, n.emplace_back(n[k]) appends a copy of the nested container at k, provided that the data
   vector has memory left (cap) for its elements. The elements of a container that is not const are moved out of it.
   Partial: without memory left the iterators dangle (C66_nvec_realloc_refuted), and moving out is itself a deviation
   (C66_nvec_moves_refuted). *)
Theorem C66_nvec_partial (A : Type) (moved : A -> A) (n : nat) (ops : list (nv_op A)) l outs m k c (cap : nat) (cst : bool) :
  0 < n -> nv_hist A n [] ops = Some (l, outs) -> nv_run A n (nv_new n) ops = Ok (m, outs) ->
  nth_error l k = Some c -> length (nv_data m) + length (flat A c) <= cap ->
  let l' := (if cst then l else upd k (each A moved c) l) ++ [c] in
  exists m', nv_emplace_own A moved cap cst n m k = Ok m' /\ nv_size A n m' = Ok (length l') /\
    (forall j x, nth_error l' j = Some x -> nv_path A n m' [j] = Ok x) /\
    (* and every further program goes on from there *)
    forall ops2 l2 outs2, nv_hist A n l' ops2 = Some (l2, outs2) -> exists m2, nv_run A n m' ops2 = Ok (m2, outs2).
Proof.
  intros Hn H E Hk Hc l'. destruct (run_ok A n Hn ops (nv_new n) [] l outs (NI_new A n) H) as (m0 & E0 & R0). rewrite E in E0. injection E0 as <-.
  destruct (emplace_own_ok A moved cap cst n m l k c Hn R0 Hk Hc) as (m' & E' & R').
  assert (Q : upd k (each A (mv A moved cst) c) l ++ [c] = l').
  { unfold l', mv. destruct cst; auto. f_equal. rewrite (each_id A).
    destruct (nth_error_split _ _ Hk) as (u & v & -> & <-). apply upd_mid. }
  rewrite Q in R'. exists m'. split; [exact E'|]. destruct R' as (R1 & R2). split; [apply size_ok; auto|]. split.
  - intros j x Hj. apply (below_ok A n m' l' j [] x Hn R1). unfold below. rewrite Hj. reflexivity.
  - intros ops2 l2 outs2 H2. destruct (run_ok A n Hn ops2 m' l' l2 outs2 (conj R1 R2) H2) as (m2 & E2 & _). eauto.
Qed.
(* Exactly then: with less memory than that, every such call uses a dangling iterator, at every depth, unless there is no
   element to append. *)
Theorem C66_nvec_when_partial (A : Type) (moved : A -> A) (n : nat) (ops : list (nv_op A)) l outs m k c (cap : nat) (cst : bool) :
  0 < n -> nv_hist A n [] ops = Some (l, outs) -> nv_run A n (nv_new n) ops = Ok (m, outs) ->
  nth_error l k = Some c -> length (nv_data m) <= cap ->
  (nv_emplace_own A moved cap cst n m k <> UB <-> length (nv_data m) + length (flat A c) <= cap).
Proof.
  intros Hn H E Hk Hc. destruct (run_ok A n Hn ops (nv_new n) [] l outs (NI_new A n) H) as (m0 & E0 & R0). rewrite E in E0. injection E0 as <-.
  split; intros G.
  - destruct (Nat.le_gt_cases (length (nv_data m) + length (flat A c)) cap) as [|X]; auto. destruct G.
    apply (emplace_own_out A moved cap cst n m l k c); auto.
  - destruct (emplace_own_ok A moved cap cst n m l k c Hn R0 Hk G) as (m' & -> & _). discriminate.
Qed.
Print Assumptions C66_nvec_when_partial.
Definition nv_case : list (nv_op (list nat)) := [NEmplace (Node [Node [Leaf [[1]; [2]]; Leaf []]; Node [Leaf [[3]]]]); NEmplace (Node [])].
Definition nv_after : nv (list nat) := match nv_run _ 3 (nv_new 3) nv_case with Ok (m, _) => m | _ => nv_new 3 end.
Theorem C66_nvec_realloc_refuted :
  nv_path _ 3 nv_after [0] = Ok (Node [Node [Leaf [[1]; [2]]; Leaf []]; Node [Leaf [[3]]]]) /\
  length (nv_data nv_after) = 3 /\
  nv_emplace_own _ (fun _ => []) 5 true 3 nv_after 0 = UB.
Proof. vm_compute. repeat split. Qed.
(* strings (moved-from ones are empty) disappear from the container that is appended again, and from the caller's own *)
Theorem C66_nvec_moves_refuted :
  (exists m', nv_emplace_own _ (fun _ => []) 6 false 3 nv_after 0 = Ok m' /\
     nv_path _ 3 m' [0] = Ok (Node [Node [Leaf [[]; []]; Leaf []]; Node [Leaf [[]]]]) /\
     nv_path _ 3 m' [2] = Ok (Node [Node [Leaf [[1]; [2]]; Leaf []]; Node [Leaf [[3]]]])) /\
  (exists m', nv_emplace_from _ (fun _ => []) false 3 nv_after (Node [Node [Leaf [[7]]]]) = Ok (m', Node [Node [Leaf [[]]]])).
Proof.
  split; eexists; [split; [vm_compute; reflexivity|]; split; vm_compute; reflexivity|vm_compute; reflexivity].
Qed.
Print Assumptions C66_nvec_partial.
Print Assumptions C66_nvec_realloc_refuted.
Print Assumptions C66_nvec_moves_refuted.
Example nvec_own_case : exists m', nv_emplace_own _ (fun _ => []) 6 true 3 nv_after 0 = Ok m' /\ nv_size _ 3 m' = Ok 3 /\
  nv_path _ 3 m' [2] = nv_path _ 3 nv_after [0] /\ nv_path _ 3 m' [0] = nv_path _ 3 nv_after [0].
Proof. eexists. split; [vm_compute; reflexivity|]. repeat split; vm_compute; reflexivity. Qed.
