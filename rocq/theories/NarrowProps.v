(* C64: vecvec, fws_multimap and nvec with index types of 8, 16, 32 or 64 bits. *)
From Coq Require Import ZArith.
From Verif Require Import Base FlatModel FlatSpec FlatProofs BiterSpec BiterProofs NarrowModel NarrowSpec NarrowProofs.

(* As long as elements and buckets can be counted with the index type, at every step, the containers answer as
   without limits. Partial: beyond the limit (see the refutations), and the cases C23 and C25 leave out. *)
Theorem C64_vecvec_partial A (dflt : A) w : bits w -> forall ops l outs,
  shist A (vv_spec_w A dflt w) [] ops = Some (l, outs) ->
  exists m, hist A (nvv_step A dflt w) vv_new ops = Ok (m, outs) /\ nvv_all A w m = Ok l.
Proof. exact (nvv_history A dflt w). Qed.
Print Assumptions C64_vecvec_partial.
Example C64_vecvec_case :
  bits 8 /\ shist nat (vv_spec_w nat 0 8) [] [VEmplace (repeat 7 200); VAddSized 50; VPush 0 1; VGrow 1 53 2; VEmplace []; VBack; VSize; VBucketSize 0; VBucketSize 1; VGet 1 52]
  = Some ([repeat 7 200 ++ [1]; repeat 0 50 ++ [2; 2; 2]; []],
      [XNone; XNone; XNone; XNone; XNone; XList []; XNum 3; XNum 201; XNum 53; XVal 2]).
Proof. split; [unfold bits; auto|]. vm_compute. reflexivity. Qed.
(* 256 elements with an index of 8 bits: the bucket is empty, and the next one contains its elements *)
Theorem C64_vecvec_limit_refuted :
  exists m, hist nat (nvv_step nat 0 8) vv_new [VEmplace (repeat 7 256); VBucketSize 0; VEmplace [1]; VAll; VBucketSize 1]
    = Ok (m, [XNone; XNum 0; XNone; XAll [[]; [7]]; XNum 1]) /\
  shist nat (vv_spec nat 0) [] [VEmplace (repeat 7 256); VBucketSize 0; VEmplace [1]; VAll; VBucketSize 1]
    = Some ([repeat 7 256; [1]], [XNone; XNum 256; XNone; XAll [repeat 7 256; [1]]; XNum 1]).
Proof. eexists. split; vm_compute; reflexivity. Qed.
Print Assumptions C64_vecvec_limit_refuted.
(* one element too many in a later bucket makes it end before it begins *)
Theorem C64_vecvec_overflow_refuted :
  hist nat (nvv_step nat 0 8) vv_new [VEmplace (repeat 7 200); VEmplace (repeat 8 55); VPush 1 9; VBucket 1] = UB.
Proof. vm_compute. reflexivity. Qed.
Print Assumptions C64_vecvec_overflow_refuted.

Theorem C64_fws_multimap_partial A w : bits w -> forall ops s outs,
  shist A (fw_spec_w A w) ([], [], false) ops = Some (s, outs) ->
  exists m, hist A (nfw_step A w) fw_new ops = Ok (m, outs).
Proof. exact (nfw_history A w). Qed.
Print Assumptions C64_fws_multimap_partial.
Example C64_fws_multimap_case :
  shist nat (fw_spec_w nat 8) ([], [], false) (map FPush (repeat 7 250) ++ [FFinishKey; FPush 1; FFinishKey; FCurrentKey; FFinishMap; FGet 1; FIndexSize; FDataSize])
  = Some (([repeat 7 250; [1]], [], true), repeat XNone 250 ++ [XNone; XNone; XNone; XNum 2; XNone; XList [1]; XNum 3; XNum 251]).
Proof. vm_compute. reflexivity. Qed.
(* 256 elements under one key with an index of 8 bits: the key has none *)
Theorem C64_fws_limit_refuted :
  exists m, hist nat (nfw_step nat 8) fw_new (map FPush (repeat 7 256) ++ [FFinishKey; FFinishMap; FGet 0])
    = Ok (m, repeat XNone 256 ++ [XNone; XNone; XList []]) /\
  shist nat (fw_spec nat) ([], [], false) (map FPush (repeat 7 256) ++ [FFinishKey; FFinishMap; FGet 0])
    = Some (([repeat 7 256], [], true), repeat XNone 256 ++ [XNone; XNone; XList (repeat 7 256)]).
Proof. eexists. split; vm_compute; reflexivity. Qed.
Print Assumptions C64_fws_limit_refuted.

(* nvec: the same container as without limits, to which C27 applies *)
Theorem C64_nvec_partial A w : forall n cs,
  0 < n -> Forall (depth A n) cs -> nv_small A w cs = true ->
  exists m, nv_build A n (nv_new n) cs = Ok m /\ nnv_build A w n (nv_new n) cs = Ok m /\ nnv_size A w n m = Ok (length cs).
Proof. exact (nnvec_ok A w). Qed.
Print Assumptions C64_nvec_partial.
Definition C64_ex : list (nest nat) := [Node [Leaf (repeat 7 200); Leaf []]; Node []; Node [Leaf (repeat 8 55)]].
Example C64_nvec_case : Forall (depth nat 2) C64_ex /\ nv_small nat 8 C64_ex = true.
Proof. split; [repeat constructor|vm_compute; reflexivity]. Qed.
Theorem C64_nvec_limit_refuted :
  exists m, nnv_build nat 8 2 (nv_new 2) [Node [Leaf (repeat 7 200)]; Node [Leaf (repeat 8 56)]] = Ok m /\
    nv_path nat 2 m [0; 0] = Ok (Leaf (repeat 7 200)) /\ nv_path nat 2 m [1; 0] = UB.
Proof. eexists. split; [vm_compute; reflexivity|]. split; vm_compute; reflexivity. Qed.
Print Assumptions C64_nvec_limit_refuted.
