(* Models of the containers that store several sequences in one: vecvec.h, fws_multimap.h, nvec.h,
   and of flat_matrix.h.
   Their vector members are sequences, as C14 shows basic_vector to be while it has at most half the
   range of its size type; index values are natural numbers without wrap-around (NarrowModel and C64
   add the widths of index types), except in flat_matrix, whose products are computed in 32 bits. Element access outside a vector is UB. *)
From Verif Require Import Base.

Section Flat.
Variable A : Type.
Variable dflt : A.

(* vec[i] *)
Definition idx {B} (l : list B) (i : nat) : res B :=
  match nth_error l i with Some x => Ok x | None => UB end.
(* vec[i] = x *)
Definition put {B} (l : list B) (i : nat) (x : B) : res (list B) :=
  if i <? length l then Ok (upd i x l) else UB.
(* the elements between data.begin() + b and data.begin() + e *)
Definition range {B} (l : list B) (b e : nat) : res (list B) :=
  if (b <=? e) && (e <=? length l) then Ok (firstn (e - b) (skipn b l)) else UB.
(* vector insert in front of position p *)
Definition ins {B} (l : list B) (p : nat) (ys : list B) : res (list B) :=
  if p <=? length l then Ok (firstn p l ++ ys ++ skipn p l) else UB.
Definition res_resize {B} (d : B) (l : list B) (n : nat) : list B :=
  firstn n l ++ repeat d (n - length l).

(* ---------------- vecvec.h ---------------- *)
Record vv := VV { vv_data : list A; vv_starts : list nat }.     (* 432-433 *)
Definition vv_new : vv := VV [] [].
(* 354-357 size, empty *)
Definition vv_size (m : vv) : nat := length (vv_starts m) - 1.
(* 177-184 bucket_begin_idx, bucket_end_idx of a mutable bucket *)
Definition vv_begin (m : vv) (k : nat) : res nat :=
  if length (vv_starts m) =? 0 then Ok 0 else idx (vv_starts m) k.
Definition vv_end (m : vv) (k : nat) : res nat :=
  if length (vv_starts m) =? 0 then Ok 0 else idx (vv_starts m) (k + 1).
(* iteration over bucket k, 116-127 *)
Definition vv_bucket (m : vv) (k : nat) : res (list A) :=
  let* b := vv_begin m k in let* e := vv_end m k in range (vv_data m) b e.
(* 113-115 *)
Definition vv_bucket_size (m : vv) (k : nat) : res nat :=
  let* b := vv_begin m k in let* e := vv_end m k in Ok (e - b).
(* iteration over a const bucket, 249-254 and 311-316: no special case for the empty map *)
Definition vv_cbucket (m : vv) (k : nat) : res (list A) :=
  let* b := idx (vv_starts m) k in let* e := idx (vv_starts m) (k + 1) in range (vv_data m) b e.
(* for (i = i_ + 1; i != bucket_starts_.size(); ++i) bucket_starts_[i] += g; needs i_ < size *)
Definition vv_shift (s : list nat) (k g : nat) : list nat :=
  firstn (k + 1) s ++ map (fun x => x + g) (skipn (k + 1) s).
(* 71-78 bucket::push_back, 80-91 bucket::grow *)
Definition vv_insert_end (m : vv) (k : nat) (ys : list A) : res vv :=
  let* e := vv_end m k in
  let* d := ins (vv_data m) e ys in
  if length (vv_starts m) <? k + 1 then UB     (* the loop never meets its end *)
  else Ok (VV d (vv_shift (vv_starts m) k (length ys))).
Definition vv_push (m : vv) (k : nat) (x : A) : res vv := vv_insert_end m k [x].
Definition vv_grow (m : vv) (k n : nat) (x : A) : res vv :=
  let* s := vv_bucket_size m k in
  let* _ := verify (s <=? n) in
  vv_insert_end m k (repeat x (n - s)).
(* 93-101 operator[] of a bucket *)
Definition vv_get (m : vv) (k i : nat) : res A :=
  let* b := idx (vv_starts m) k in idx (vv_data m) (b + i).
Definition vv_set (m : vv) (k i : nat) (x : A) : res vv :=
  let* b := idx (vv_starts m) k in
  let* d := put (vv_data m) (b + i) x in Ok (VV d (vv_starts m)).
(* 103-111 at of a bucket *)
Definition vv_bucket_at (m : vv) (k i : nat) : res A :=
  let* s := vv_bucket_size m k in
  let* _ := verify (i <? s) in
  let* b := vv_begin m k in idx (vv_data m) (b + i).
(* 336-346 at: the bucket, observed by iterating over it *)
Definition vv_at (m : vv) (k : nat) : res (list A) :=
  let* _ := verify (k <? length (vv_starts m)) in vv_bucket m k.
(* 348-352; size() - 1 wraps to the largest key when there is no bucket *)
Definition vv_front (m : vv) : res (list A) := vv_at m 0.
Definition vv_back (m : vv) : res (list A) :=
  if vv_size m =? 0 then Throw else vv_at m (vv_size m - 1).
(* 364-397 emplace_back (container and initializer_list overload), add_back_sized *)
Definition vv_started (m : vv) : list nat := if length (vv_starts m) =? 0 then [0] else vv_starts m.
Definition vv_emplace_back (m : vv) (xs : list A) : vv :=
  let d := vv_data m ++ xs in VV d (vv_started m ++ [length d]).
Definition vv_add_back_sized (m : vv) (n : nat) : vv :=
  let d := vv_data m ++ repeat dflt n in VV d (vv_started m ++ [length d]).
(* 405-412 resize *)
Definition vv_resize (m : vv) (n : nat) : vv :=
  let s := vv_starts m in
  VV (vv_data m) (firstn (n + 1) s ++ repeat (length (vv_data m)) (n + 1 - length s)).
(* 414-421: all buckets from begin() to end() *)
Fixpoint vv_all_from (m : vv) (k n : nat) : res (list (list A)) :=
  match n with
  | O => Ok []
  | S n => let* x := vv_bucket m k in let* xs := vv_all_from m (S k) n in Ok (x :: xs)
  end.
Definition vv_all (m : vv) : res (list (list A)) := vv_all_from m 0 (vv_size m).

Inductive vv_op := VEmplace (xs : list A) | VAddSized (n : nat) | VResize (n : nat) | VClear
| VPush (k : nat) (x : A) | VGrow (k n : nat) (x : A) | VSet (k i : nat) (x : A)
| VGet (k i : nat) | VBucketAt (k i : nat) | VBucket (k : nat) | VCBucket (k : nat) | VBucketSize (k : nat)
| VAt (k : nat) | VFront | VBack | VSize | VAll.
Inductive vout := XNone | XThrow | XVal (x : A) | XNum (n : nat) | XList (l : list A) | XAll (l : list (list A)).
(* an exception leaves the container as it is: all checks come before the first write *)
Definition answer {S B} (st : S) (r : res B) (f : B -> vout) : res (S * vout) :=
  match r with Ok x => Ok (st, f x) | Throw => Ok (st, XThrow) | UB => UB | Fuel => Fuel end.
Definition become {S} (st : S) (r : res S) : res (S * vout) :=
  match r with Ok s => Ok (s, XNone) | Throw => Ok (st, XThrow) | UB => UB | Fuel => Fuel end.
Definition vv_step (m : vv) (o : vv_op) : res (vv * vout) :=
  match o with
  | VEmplace xs => Ok (vv_emplace_back m xs, XNone)
  | VAddSized n => Ok (vv_add_back_sized m n, XNone)
  | VResize n => Ok (vv_resize m n, XNone)
  | VClear => Ok (vv_new, XNone)
  | VPush k x => become m (vv_push m k x)
  | VGrow k n x => become m (vv_grow m k n x)
  | VSet k i x => become m (vv_set m k i x)
  | VGet k i => answer m (vv_get m k i) XVal
  | VBucketAt k i => answer m (vv_bucket_at m k i) XVal
  | VBucket k => answer m (vv_bucket m k) XList
  | VCBucket k => answer m (vv_cbucket m k) XList
  | VBucketSize k => answer m (vv_bucket_size m k) XNum
  | VAt k => answer m (vv_at m k) XList
  | VFront => answer m (vv_front m) XList
  | VBack => answer m (vv_back m) XList
  | VSize => Ok (m, XNum (vv_size m))
  | VAll => answer m (vv_all m) XAll
  end.
(* histories of any of the containers *)
Fixpoint hist {S O} (step : S -> O -> res (S * vout)) (s : S) (ops : list O) : res (S * list vout) :=
  match ops with
  | [] => Ok (s, [])
  | o :: ops => let* ' (s, x) := step s o in let* ' (s, xs) := hist step s ops in Ok (s, x :: xs)
  end.

(* ---------------- fws_multimap.h ---------------- *)
Record fw := FW { fw_data : list A; fw_index : list nat; fw_cur : nat; fw_complete : bool }.  (* 197-200 *)
Definition fw_new : fw := FW [] [] 0 false.
(* 151-159 push_back, emplace_back *)
Definition fw_push (m : fw) (x : A) : fw := FW (fw_data m ++ [x]) (fw_index m) (fw_cur m) (fw_complete m).
(* 163-173 finish_key, finish_map *)
Definition fw_finish_key (m : fw) : fw :=
  FW (fw_data m) (fw_index m ++ [fw_cur m]) (length (fw_data m)) (fw_complete m).
Definition fw_finish_map (m : fw) : fw :=
  FW (fw_data m) (fw_index m ++ [length (fw_data m)]) (fw_cur m) true.
(* 179-182 operator[], 21-23 and 29-30 the entry's elements *)
Definition fw_get (m : fw) (k : nat) : res (list A) :=
  let* b := idx (fw_index m) k in let* e := idx (fw_index m) (k + 1) in range (fw_data m) b e.
(* 184-185 begin to end; index_.size() - 1 wraps for an empty index *)
Fixpoint fw_all_from (m : fw) (k n : nat) : res (list (list A)) :=
  match n with
  | O => Ok []
  | S n => let* x := fw_get m k in let* xs := fw_all_from m (S k) n in Ok (x :: xs)
  end.
Definition fw_all (m : fw) : res (list (list A)) :=
  if length (fw_index m) =? 0 then UB else fw_all_from m 0 (length (fw_index m) - 1).
(* 89-95 it + n and it - n of an iterator at position i *)
Definition fw_it_plus (i n : nat) : nat := i + n.
Definition fw_it_minus (i n : nat) : nat := i + n.

Inductive fw_op := FPush (x : A) | FFinishKey | FFinishMap | FCurrentKey | FGet (k : nat) | FAll
| FIndexSize | FDataSize.
Definition fw_step (m : fw) (o : fw_op) : res (fw * vout) :=
  match o with
  | FPush x => if fw_complete m then UB else Ok (fw_push m x, XNone)          (* 152 assert *)
  | FFinishKey => if fw_complete m then UB else Ok (fw_finish_key m, XNone)   (* 164 assert *)
  | FFinishMap => if fw_complete m then UB else Ok (fw_finish_map m, XNone)   (* 170 assert *)
  | FCurrentKey => Ok (m, XNum (length (fw_index m)))                         (* 161 *)
  | FGet k => answer m (fw_get m k) XList
  | FAll => answer m (fw_all m) XAll
  | FIndexSize => Ok (m, XNum (length (fw_index m)))                          (* 193 *)
  | FDataSize => Ok (m, XNum (length (fw_data m)))                            (* 194 *)
  end.

(* ---------------- nvec.h ---------------- *)
(* a nested container handed to emplace_back *)
Inductive nest := Leaf (xs : list A) | Node (ns : list nest).
Record nv := NV { nv_data : list A; nv_index : list (list nat) }.  (* 570-571; index_[0] first *)
Definition nv_new (N : nat) : nv := NV [] (repeat [] N).
Definition push_at (l : list (list nat)) (L v : nat) : res (list (list nat)) :=
  let* s := idx l L in put l L (s ++ [v]).
(* 540-553 add<L> *)
Fixpoint nv_add (L : nat) (m : nv) (c : nest) {struct c} : res nv :=
  match L, c with
  | O, Leaf xs =>
      let* i := push_at (nv_index m) 0 (length (nv_data m) + length xs) in
      Ok (NV (nv_data m ++ xs) i)
  | S L', Node ns =>
      let* low := idx (nv_index m) L' in
      let* i := push_at (nv_index m) L (length low + length ns - 1) in
      (fix all (m : nv) (ns : list nest) : res nv :=
         match ns with
         | [] => Ok m
         | n :: ns => let* m := nv_add L' m n in all m ns
         end) (NV (nv_data m) i) ns
  | _, _ => UB       (* does not compile: wrong nesting depth *)
  end.
(* 470-478 emplace_back *)
Definition nv_emplace_back (N : nat) (m : nv) (c : nest) : res nv :=
  let* low := idx (nv_index m) 0 in
  let m := if length low =? 0 then NV (nv_data m) (map (fun i => i ++ [0]) (nv_index m)) else m in
  nv_add (N - 1) m c.
(* emplace_back of several containers *)
Fixpoint nv_build (N : nat) (m : nv) (cs : list nest) : res nv :=
  match cs with [] => Ok m | c :: cs => let* m := nv_emplace_back N m c in nv_build N m cs end.
(* 483-485 size() *)
Definition nv_size (N : nat) (m : nv) : res nat :=
  let* s := idx (nv_index m) (N - 1) in Ok (length s - 1).
(* 480-481, and 371-387 of meta_bucket: operator[] along a path. A meta_bucket at level L and position p
   stands for the positions index_[L][p] .. index_[L][p+1] - 1 of level L - 1 *)
Fixpoint nv_pos (m : nv) (L p : nat) (path : list nat) : res (nat * nat) :=
  match path with
  | [] => Ok (L, p)
  | i :: path => match L with
      | O => UB                    (* does not compile: too many indices *)
      | S L' => let* s := idx (nv_index m) L in let* b := idx s p in nv_pos m L' (b + i) path
      end
  end.
(* size() of the (meta) bucket at a path: 65, 198-200, 289, 369 *)
Definition nv_len (m : nv) (L p : nat) : res nat :=
  let* s := idx (nv_index m) L in
  let* b := idx s p in let* e := idx s (p + 1) in if b <=? e then Ok (e - b) else UB.
Definition nv_path_size (N : nat) (m : nv) (path : list nat) : res nat :=
  match path with
  | [] => nv_size N m
  | k :: path => let* ' (L, p) := nv_pos m (N - 1) k path in nv_len m L p
  end.
(* iteration over the elements below the (meta) bucket at level L, position p *)
Fixpoint nv_below (m : nv) (L p : nat) : res nest :=
  let* s := idx (nv_index m) L in
  let* b := idx s p in let* e := idx s (p + 1) in
  match L with
  | O => let* xs := range (nv_data m) b e in Ok (Leaf xs)
  | S L' =>
      if b <=? e then
        let* ns := (fix all (q n : nat) : res (list nest) :=
                      match n with
                      | O => Ok []
                      | S n => let* x := nv_below m L' q in let* xs := all (S q) n in Ok (x :: xs)
                      end) b (e - b) in
        Ok (Node ns)
      else UB
  end.
Definition nv_path (N : nat) (m : nv) (path : list nat) : res nest :=
  match path with
  | [] => UB
  | k :: path => let* ' (L, p) := nv_pos m (N - 1) k path in nv_below m L p
  end.
(* 498-512 at(k, i) for N = 2 (with more indices get_bucket<Rest...> does not compile): the bucket *)
Definition nv_at2 (m : nv) (k i : nat) : res (list A) :=
  let* s1 := idx (nv_index m) 1 in
  let* _ := verify (k <? length s1) in
  let* b := idx s1 k in
  let* s0 := idx (nv_index m) 0 in
  let* x := idx s0 (b + i) in let* y := idx s0 (b + i + 1) in range (nv_data m) x y.
(* 487-496 size(first, rest...) and 555-568 get_size; result UB if the subtraction wraps *)
Fixpoint nv_get_size (m : nv) (L i : nat) (rest : list nat) : res nat :=
  let* s := idx (nv_index m) L in
  match rest with
  | [] => let* b := idx s i in let* e := idx s (i + 1) in if b <=? e then Ok (e - b) else UB
  | [j] => let* b := idx s (i + j) in let* e := idx s (i + j + 1) in if b <=? e then Ok (e - b) else UB
  | j :: rest => let* b := idx s (i + j) in nv_get_size m L b rest
  end.
Definition nv_size_of (N : nat) (m : nv) (first : nat) (rest : list nat) : res nat :=
  let I := length rest in
  let* s := idx (nv_index m) I in
  let* _ := verify (first <? length s) in
  if I =? 0 then nv_get_size m (N - I - 1) first []
  else let* i := idx s first in nv_get_size m (N - I - 1) i rest.

(* ---------------- flat_matrix.h ---------------- *)
Record fm := FM { fm_rows : N; fm_cols : N; fm_entries : list A }.   (* 106-107 *)
Definition fm_new : fm := FM 0 0 [].
(* 96-100 resize: the product of a 32 and a 64 bit number, converted to 32 bits; 115-122
   make_flat_matrix multiplies in 32 bits, with the same result *)
Definition fm_resize (m : fm) (r c : N) : fm :=
  FM r (wrap32 c) (res_resize dflt (fm_entries m) (N.to_nat (wrap32 (r * c)))).
Definition fm_make (r c : N) (x : A) : fm := FM r c (repeat x (N.to_nat (wrap32 (r * c)))).
(* 37-41, 62-66, 81-84: position of cell i, j, computed in 32 bits *)
Definition fm_pos (m : fm) (i j : N) : nat := N.to_nat (wrap32 (fm_cols m * i + j)).
Definition fm_get (m : fm) (i j : N) : res A :=
  if ((i <? fm_rows m) && (j <? fm_cols m))%N then idx (fm_entries m) (fm_pos m i j) else UB.
Definition fm_set (m : fm) (i j : N) (x : A) : res fm :=
  if ((i <? fm_rows m) && (j <? fm_cols m))%N
  then let* e := put (fm_entries m) (fm_pos m i j) x in Ok (FM (fm_rows m) (fm_cols m) e) else UB.
(* 86-94 at(i)[j]. Iterating over a row (20-34) is not modelled: std::next is applied to the vector
   itself, which does not compile when instantiated *)
Definition fm_at (m : fm) (i j : N) : res A :=
  let* _ := verify (i <? fm_rows m)%N in
  if (j <? fm_cols m)%N then idx (fm_entries m) (fm_pos m i j) else UB.
(* 102-104 reset *)
Definition fm_reset (m : fm) (x : A) : fm := FM (fm_rows m) (fm_cols m) (map (fun _ => x) (fm_entries m)).

Inductive fm_op := MResize (r c : N) | MMake (r c : N) (x : A) | MSet (i j : N) (x : A) | MGet (i j : N)
| MAt (i j : N) | MReset (x : A).
Definition fm_step (m : fm) (o : fm_op) : res (fm * vout) :=
  match o with
  | MResize r c => Ok (fm_resize m r c, XNone)
  | MMake r c x => Ok (fm_make r c x, XNone)
  | MSet i j x => become m (fm_set m i j x)
  | MGet i j => answer m (fm_get m i j) XVal
  | MAt i j => answer m (fm_at m i j) XVal
  | MReset x => Ok (fm_reset m x, XNone)
  end.
End Flat.
Arguments VV {A}. Arguments vv_data {A}. Arguments vv_starts {A}. Arguments vv_new {A}.
Arguments FW {A}. Arguments fw_data {A}. Arguments fw_index {A}. Arguments fw_cur {A}. Arguments fw_complete {A}. Arguments fw_new {A}.
Arguments NV {A}. Arguments nv_data {A}. Arguments nv_index {A}. Arguments nv_new {A}. Arguments Leaf {A}. Arguments Node {A}.
Arguments FM {A}. Arguments fm_rows {A}. Arguments fm_cols {A}. Arguments fm_entries {A}. Arguments fm_new {A}.
Arguments VEmplace {A}. Arguments VAddSized {A}. Arguments VResize {A}. Arguments VClear {A}. Arguments VPush {A}. Arguments VGrow {A}.
Arguments VSet {A}. Arguments VGet {A}. Arguments VBucketAt {A}. Arguments VBucket {A}. Arguments VCBucket {A}. Arguments VBucketSize {A}.
Arguments VAt {A}. Arguments VFront {A}. Arguments VBack {A}. Arguments VSize {A}. Arguments VAll {A}.
Arguments XNone {A}. Arguments XThrow {A}. Arguments XVal {A}. Arguments XNum {A}. Arguments XList {A}. Arguments XAll {A}.
Arguments FPush {A}. Arguments FFinishKey {A}. Arguments FFinishMap {A}. Arguments FCurrentKey {A}. Arguments FGet {A}. Arguments FAll {A}.
Arguments FIndexSize {A}. Arguments FDataSize {A}.
Arguments MResize {A}. Arguments MMake {A}. Arguments MSet {A}. Arguments MGet {A}. Arguments MAt {A}. Arguments MReset {A}.
