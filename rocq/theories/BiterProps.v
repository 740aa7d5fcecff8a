(* C63: iterators over the buckets of vecvec, paged_vecvec and nvec. *)
From Coq Require Import ZArith.
From Verif Require Import Base FlatModel FlatSpec FlatProofs MmModel PagedModel PagedSpec PagedProofs BiterModel BiterSpec BiterProofs.

(* Every program with iterator variables that stays between begin() and end() gets the answers that positions in
   the list of buckets give: ++, --, +=, -=, +, -, ==, !=, differences and reads. Partial: with positions of 32
   bits a difference a - b may only be taken if a is not before b (C63_backward_refuted); const iterators
   of vecvec have 64 bits and need no such condition. The strong types that Key may be are left out. *)
Theorem C63_vecvec_partial A (dflt : A) ops l outs w k prog xs :
  shist A (vv_spec A dflt) [] ops = Some (l, outs) -> bits w -> fits w (length l) ->
  (i_means _ l (diffs_of w) (repeat 0 k) prog = Some xs ->
   exists m, hist A (vv_step A dflt) vv_new ops = Ok (m, outs) /\
     i_prog w _ (vv_bucket A m) vv_first (vv_last w m) k prog = Ok xs) /\
  (i_means _ l Any (repeat 0 k) prog = Some xs ->
   exists m, hist A (vv_step A dflt) vv_new ops = Ok (m, outs) /\
     i_prog 64 _ (vv_cbucket A m) vv_first (vv_last 64 m) k prog = Ok xs).
Proof. exact (vv_iter A dflt ops l outs w k prog xs). Qed.
Print Assumptions C63_vecvec_partial.
Definition C63_prog : list iop :=
  [IRead 0; IEnd 1; IDiff 1 0; IInc 0; IRead 0; IPlus 2 0 2%Z; IEq 2 1; IDec 1; IRead 1; IMinus 2 1 2%Z; INe 2 0;
   IAdd 0 1%Z; ISub 0 2%Z; IEq 0 2; IDiff 1 2; IRead 2].
Example C63_vecvec_case :
  shist nat (vv_spec nat 0) [] [VEmplace [1; 2]; VEmplace []; VEmplace [3]; VPush 1 7] = Some ([[1; 2]; [7]; [3]], [XNone; XNone; XNone; XNone]) /\
  bits 32 /\ fits 32 3 /\
  i_means _ [[1; 2]; [7]; [3]] (diffs_of 32) (repeat 0 3) C63_prog
  = Some [IVal _ [1; 2]; INone _; INum _ 3%Z; INone _; IVal _ [7]; INone _; IBool _ true; INone _; IVal _ [3]; INone _; IBool _ true;
          INone _; INone _; IBool _ true; INum _ 2%Z; IVal _ [1; 2]] /\
  i_means _ [[1; 2]; [7]; [3]] Any (repeat 0 2) [IEnd 1; IDiff 0 1] = Some [INone _; INum _ (-3)%Z].
Proof. split; [reflexivity|]. split; [unfold bits; auto|]. split; [unfold fits; cbn; lia|]. split; reflexivity. Qed.

(* The difference of two iterators, the first of which is before the second, is negative: false with positions of
   32 bits, e.g. a vecvec whose keys have 32 bits *)
Theorem C63_backward_refuted :
  (exists m, hist nat (vv_step nat 0) vv_new [VEmplace [1]; VEmplace [2]] = Ok (m, [XNone; XNone]) /\
     i_prog 32 _ (vv_bucket nat m) vv_first (vv_last 32 m) 2 [IEnd 1; IDiff 0 1] = Ok [INone _; INum _ 4294967294%Z]) /\
  i_means _ [[1]; [2]] Any (repeat 0 2) [IEnd 1; IDiff 0 1] = Some [INone (list nat); INum _ (-2)%Z].
Proof. split; [|reflexivity]. eexists. split; [reflexivity|]. vm_compute. reflexivity. Qed.
Print Assumptions C63_backward_refuted.
(* With positions of 32 bits this is so for every two iterators of every vecvec: the difference is off by 2^32 whenever it should be negative. *)
Theorem C63_backward_when A (dflt : A) ops l outs i j : shist A (vv_spec A dflt) [] ops = Some (l, outs) -> fits 32 (length l) -> i < j -> j <= length l ->
  exists m, hist A (vv_step A dflt) vv_new ops = Ok (m, outs) /\
    i_prog 32 _ (vv_bucket A m) vv_first (vv_last 32 m) 2 [IAdd 0 (Z.of_nat i); IAdd 1 (Z.of_nat j); IDiff 0 1] =
    Ok [INone _; INone _; INum _ (2 ^ 32 - (Z.of_nat j - Z.of_nat i))%Z].
Proof. exact (vv_back_diff A dflt ops l outs i j). Qed.
Print Assumptions C63_backward_when.
Example C63_backward_when_case : shist nat (vv_spec nat 0) [] [VEmplace [1]; VEmplace []; VEmplace [2; 3]] = Some ([[1]; []; [2; 3]], [XNone; XNone; XNone]) /\
  fits 32 3 /\ 1 < 3.
Proof. split; [reflexivity|]. split; [unfold fits; cbn; lia|lia]. Qed.

(* std::lower_bound over the buckets finds the first bucket for which the predicate does not hold, after at most
   as many rounds as there are buckets. *)
Theorem C63_lower_bound A (dflt : A) ops l outs w p c fuel :
  shist A (vv_spec A dflt) [] ops = Some (l, outs) -> bits w -> fits w (length l) ->
  c <= length l -> (forall j x, nth_error l j = Some x -> p x = (j <? c)) -> length l < fuel ->
  exists m, hist A (vv_step A dflt) vv_new ops = Ok (m, outs) /\
    search w _ (vv_bucket A m) vv_first (vv_last w m) fuel p = Ok (N.of_nat c).
Proof. exact (vv_search A dflt ops l outs w p c fuel). Qed.
Print Assumptions C63_lower_bound.
Example C63_lower_bound_case : let l := [[]; [1]; [1; 2]; [1; 2; 3]; [5; 5; 5; 5]] in let p := fun b : list nat => length b <? 3 in
  (forall j x, nth_error l j = Some x -> p x = (j <? 3)) /\
  shist nat (vv_spec nat 0) [] (map VEmplace l) = Some (l, repeat XNone 5).
Proof.
  split; [|reflexivity]. intros [|[|[|[|[|[|j]]]]]] x E; cbn in E; try discriminate; injection E as <-; reflexivity.
Qed.

(* The same for paged_vecvec, provided there is a bucket: begin() of an empty one throws (C26_empty_refuted). *)
Theorem C63_paged_vecvec_partial : forall (A : Type) (dflt : A) (lmin lw : nat),
  1 <= lmin <= 15 -> 1 <= lw <= 2 ^ lmin ->
  forall ops l outs w k prog xs, shist A (pv_spec A) [] ops = Some (l, outs) -> bits w -> fits w (length l) -> l <> [] ->
  i_means _ l (diffs_of w) (repeat 0 k) prog = Some xs ->
  exists m, hist A (pv_step A dflt lmin lw) (pv_new A lmin) ops = Ok (m, outs) /\
    i_prog w _ (pv_bucket A m) (pv_first m) (pv_last w m) k prog = Ok xs.
Proof. exact pv_iter. Qed.
Print Assumptions C63_paged_vecvec_partial.
Example C63_paged_vecvec_case :
  shist nat (pv_spec nat) [] [PEmplace [1; 2]; PEmplace [7]; PEmplace [4]; PPush 2 3] = Some ([[1; 2]; [7]; [4; 3]], [XNone; XNone; XNone; XNone]) /\
  exists xs, i_means _ [[1; 2]; [7]; [4; 3]] (diffs_of 32) (repeat 0 3) C63_prog = Some xs.
Proof. split; [reflexivity|]. eexists. reflexivity. Qed.
Theorem C63_paged_empty_refuted :
  i_prog 32 _ (pv_bucket nat (pv_new nat 4)) (pv_first (pv_new nat 4)) (pv_last 32 (pv_new nat 4)) 1 [] = Throw /\
  i_means (list nat) [] (diffs_of 32) (repeat 0 1) [] = Some [].
Proof. split; reflexivity. Qed.
Print Assumptions C63_paged_empty_refuted.

(* nvec, at every depth: iterators over the nvec and over the buckets of every container in it. No difference of
   iterators exists, except over innermost containers (then as above). *)
Theorem C63_nvec_partial A n cs : 0 < n -> Forall (depth A n) cs -> forall w, bits w -> fits w (all_nodes cs) ->
  exists m, nv_build A n (nv_new n) cs = Ok m /\
    (forall k prog xs, i_means _ cs NoDiff (repeat 0 k) prog = Some xs ->
       i_prog w _ (nv_below A m (n - 1)) nv_first (nv_last w n m) k prog = Ok xs) /\
    (forall j path c ns, nth_error cs j = Some c -> sub A c path = Some (Node ns) ->
       forall k prog xs,
       i_means _ ns (if n =? length path + 2 then diffs_of w else NoDiff) (repeat 0 k) prog = Some xs ->
       nv_in_prog w n m j path k prog = Ok xs).
Proof. exact (nv_iter A n cs). Qed.
Print Assumptions C63_nvec_partial.
Definition C63_ex : list (nest nat) := [Node [Node []]; Node [Node [Leaf [1; 2]; Leaf []; Leaf [3]]; Node [Leaf [4]]]].
Example C63_nvec_case : Forall (depth nat 3) C63_ex /\ fits 32 (all_nodes C63_ex) /\
  sub nat (nth 1 C63_ex (Leaf [])) [0] = Some (Node [Leaf [1; 2]; Leaf []; Leaf [3]]) /\
  i_means _ [Leaf [1; 2]; Leaf []; Leaf [3]] (if 3 =? length [0] + 2 then diffs_of 32 else NoDiff) (repeat 0 2)
    [IEnd 1; IDiff 1 0; IDec 1; IRead 1; IAdd 0 2%Z; IEq 0 1]
  = Some [INone _; INum _ 3%Z; INone _; IVal _ (Leaf [3]); INone _; IBool _ true] /\
  i_means _ [Node [Leaf [1; 2]; Leaf []; Leaf [3]]; Node [Leaf [4]]] NoDiff (repeat 0 1) [IInc 0; IRead 0]
  = Some [INone _; IVal _ (Node [Leaf [4]])].
Proof. split; [repeat constructor|]. split; [unfold fits; cbn; lia|]. repeat split; reflexivity. Qed.
