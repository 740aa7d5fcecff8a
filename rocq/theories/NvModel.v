(* Programs over an nvec: emplace_back mixed with reads and writes of elements through operator[], at, front and back
   of the innermost buckets. On top of the nvec of FlatModel (include/cista/containers/nvec.h). *)
From Verif Require Import Base FlatModel AliasModel.

Section Nv.
Variable A : Type.
Notation nv := (nv A).
Notation nest := (nest A).

(* operator[] along k and path (480-481, 371-387) down to an innermost bucket. Fewer indices give a meta_bucket, which has
   no elements: does not compile *)
Definition nv_inner (N : nat) (m : nv) (k : nat) (path : list nat) : res nat :=
  let* ' (L, p) := nv_pos A m (N - 1) k path in
  match L with O => Ok p | S _ => UB end.
(* nvec.h:172-180, 58-61: operator[](j) of a bucket; the assertion is the precondition *)
Definition nv_elem (m : nv) (p j : nat) : res nat :=
  let* s := idx (nv_index m) 0 in
  let* b := idx s p in let* e := idx s (p + 1) in
  if (b <=? e) && (j <? e - b) then Ok (b + j) else UB.
Definition nv_get (m : nv) (p j : nat) : res A := let* q := nv_elem m p j in idx (nv_data m) q.
Definition nv_set (m : nv) (p j : nat) (x : A) : res nv :=
  let* q := nv_elem m p j in
  let* d := put (nv_data m) q x in Ok (NV d (nv_index m)).
(* 182-190, 53-56: at(j) *)
Definition nv_at (m : nv) (p j : nat) : res A :=
  let* n := nv_len A m 0 p in
  let* _ := verify (j <? n) in
  let* s := idx (nv_index m) 0 in
  let* b := idx s p in idx (nv_data m) (b + j).
(* 160-168, 41-49: front() and back() of a bucket *)
Definition nv_front (m : nv) (p : nat) : res A := nv_get m p 0.
Definition nv_back (m : nv) (p : nat) : res A :=
  let* n := nv_len A m 0 p in
  if n =? 0 then UB else nv_get m p (n - 1).

Inductive nv_op :=
| NEmplace (c : nest)                                  (* 470-478 *)
| NSize                                                (* 483-485 *)
| NWidth (k : nat) (path : list nat)                   (* size() of a meta_bucket or bucket *)
| NRead (k : nat) (path : list nat)                    (* iteration over everything below *)
| NLast                                                (* 465, 468: back(), and iteration over it *)
| NGet (k : nat) (path : list nat) (j : nat)
| NAt (k : nat) (path : list nat) (j : nat)
| NFront (k : nat) (path : list nat)
| NBack (k : nat) (path : list nat)
| NSet (k : nat) (path : list nat) (j : nat) (x : A)   (* n[k][path][j] = x *)
| NSetAt (k : nat) (path : list nat) (j : nat) (x : A) (* n[k][path].at(j) = x *)
| NFill (k : nat) (path : list nat) (x : A).           (* for (auto& e : n[k][path]) e = x *)
Inductive nv_out := YNone | YThrow | YVal (x : A) | YNum (n : nat) | YNest (c : nest).

Definition nv_put (m : nv) (p j : nat) (x : A) : res nv :=
  let* n := nv_len A m 0 p in
  let* _ := verify (j <? n) in nv_set m p j x.
Fixpoint nv_fill (m : nv) (p j n : nat) (x : A) : res nv :=
  match n with O => Ok m | S n => let* m := nv_set m p j x in nv_fill m p (S j) n x end.

(* an exception leaves the container as it is *)
Definition nv_answer (m : nv) (r : res (nv * nv_out)) : res (nv * nv_out) := match r with Throw => Ok (m, YThrow) | r => r end.
Definition nv_step (N : nat) (m : nv) (o : nv_op) : res (nv * nv_out) :=
  nv_answer m match o with
  | NEmplace c => let* m := nv_emplace_back A N m c in Ok (m, YNone)
  | NSize => let* n := nv_size A N m in Ok (m, YNum n)
  | NWidth k path => let* n := nv_path_size A N m (k :: path) in Ok (m, YNum n)
  | NRead k path => let* c := nv_path A N m (k :: path) in Ok (m, YNest c)
  | NLast => let* n := nv_size A N m in if n =? 0 then UB else let* c := nv_below A m (N - 1) (n - 1) in Ok (m, YNest c)
  | NGet k path j => let* p := nv_inner N m k path in let* x := nv_get m p j in Ok (m, YVal x)
  | NAt k path j => let* p := nv_inner N m k path in let* x := nv_at m p j in Ok (m, YVal x)
  | NFront k path => let* p := nv_inner N m k path in let* x := nv_front m p in Ok (m, YVal x)
  | NBack k path => let* p := nv_inner N m k path in let* x := nv_back m p in Ok (m, YVal x)
  | NSet k path j x => let* p := nv_inner N m k path in let* m := nv_set m p j x in Ok (m, YNone)
  | NSetAt k path j x => let* p := nv_inner N m k path in let* m := nv_put m p j x in Ok (m, YNone)
  | NFill k path x => let* p := nv_inner N m k path in let* n := nv_len A m 0 p in let* m := nv_fill m p 0 n x in Ok (m, YNone)
  end.
Fixpoint nv_run (N : nat) (m : nv) (ops : list nv_op) : res (nv * list nv_out) :=
  match ops with
  | [] => Ok (m, [])
  | o :: ops => let* ' (m, x) := nv_step N m o in let* ' (m, xs) := nv_run N m ops in Ok (m, x :: xs)
  end.

(* 540-553 add<L> when the argument is the (meta) bucket at level L, position p, of the container itself. Its begin, end
   and size are read through the pointer to the index vector, which stays valid when the index grows; the iterators over
   the elements point into the data vector, which has memory for cap elements, not fewer than
   it holds (see AliasModel). cst: the bucket comes from
   a const nvec; otherwise the elements are moved out of it *)
Variable moved : A -> A.
Fixpoint nv_add_own (cap : nat) (cst : bool) (L : nat) (m : nv) (p : nat) : res nv :=
  let* s := idx (nv_index m) L in
  let* b := idx s p in let* e := idx s (p + 1) in
  if b <=? e then
    match L with
    | O =>
        let* i := push_at (nv_index m) 0 (length (nv_data m) + (e - b)) in
        if length (nv_data m) + (e - b) <=? cap then
          let* xs := range (nv_data m) b e in
          Ok (NV (move_out A moved cst b (e - b) (nv_data m) ++ xs) i)
        else UB
    | S L' =>
        let* low := idx (nv_index m) L' in
        let* i := push_at (nv_index m) L (length low + (e - b) - 1) in
        (fix all (n q : nat) (m : nv) : res nv :=
           match n with
           | O => Ok m
           | S n => let* m := nv_add_own cap cst L' m q in all n (S q) m
           end) (e - b) b (NV (nv_data m) i)
    end
  else UB.
(* 470-478 n.emplace_back(n[k]); there is a bucket, so the indexes are not empty *)
Definition nv_emplace_own (cap : nat) (cst : bool) (N : nat) (m : nv) (k : nat) : res nv := nv_add_own cap cst (N - 1) m k.
(* 470-478 n.emplace_back(c) with a container of the caller's, and what that holds afterwards: bucket is a named parameter,
   so add<L> gets an lvalue, and moves the elements out of it unless it is const *)
Fixpoint nv_emptied (c : nest) : nest := match c with Leaf xs => Leaf (map moved xs) | Node ns => Node (map nv_emptied ns) end.
Definition nv_emplace_from (cst : bool) (N : nat) (m : nv) (c : nest) : res (nv * nest) :=
  let* m := nv_emplace_back A N m c in Ok (m, if cst then c else nv_emptied c).
End Nv.
Arguments NEmplace {A}. Arguments NSize {A}. Arguments NWidth {A}. Arguments NRead {A}. Arguments NLast {A}. Arguments NGet {A}.
Arguments NAt {A}. Arguments NFront {A}. Arguments NBack {A}. Arguments NSet {A}. Arguments NSetAt {A}. Arguments NFill {A}.
Arguments YNone {A}. Arguments YThrow {A}. Arguments YVal {A}. Arguments YNum {A}. Arguments YNest {A}.
