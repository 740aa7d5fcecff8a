(* Arguments that refer to elements of the container itself. The container passes a reference (or a pair of
   pointers) into its own data vector to a function that may reallocate that vector, move elements in it or write a
   free-list link into it before the reference is read. A reference is a position in the data vector; cap is the
   number of elements the data vector has memory for (allocated_size_, containers/vector.h:448), so a reference
   dangles exactly when the vector has grown beyond cap (vector.h:345-385 reserve). *)
From Verif Require Import Base FlatModel MmModel PagedModel.

(* reading through a reference to position p after the vector has taken n elements *)
Definition deref {B} (cap p : nat) (d : list B) : res B := if length d <=? cap then idx d p else UB.

Section Alias.
Variable A : Type.
Variable dflt : A.
(* what a move leaves behind in its source *)
Variable moved : A -> A.

(* ---------------- vecvec.h ---------------- *)
(* v[j][i], 93-101 and 177-184: the position; the bounds are asserted *)
Definition vv_ref (m : vv A) (j i : nat) : res nat :=
  let* b := vv_begin A m j in let* e := vv_end A m j in if b + i <? e then Ok (b + i) else UB.
(* vector.h:215-225 and 226-239 insert: reserve, then the value is read and copied to the end n times, then rotate.
   The vector's size during the copies is not modelled: memory for all n was reserved before the first *)
Definition vec_insert_own (cap : nat) (d : list A) (pos n p : nat) : res (list A) :=
  if n =? 0 then ins d pos []
  else let* x := if length d + n <=? cap then idx d p else UB in ins d pos (repeat x n).
(* 71-78 v[k].push_back(v[j][i]); 80-91 v[k].grow(n, v[j][i]) *)
Definition vv_insert_own (cap : nat) (m : vv A) (k n p : nat) : res (vv A) :=
  let* e := vv_end A m k in
  let* d := vec_insert_own cap (vv_data m) e n p in
  if length (vv_starts m) <? k + 1 then UB else Ok (VV d (vv_shift (vv_starts m) k n)).
Definition vv_push_own (cap : nat) (m : vv A) (k j i : nat) : res (vv A) :=
  let* p := vv_ref m j i in vv_insert_own cap m k 1 p.
Definition vv_grow_own (cap : nat) (m : vv A) (k n j i : nat) : res (vv A) :=
  let* p := vv_ref m j i in
  let* s := vv_bucket_size A m k in
  let* _ := verify (s <=? n) in
  vv_insert_own cap m k (n - s) p.
(* 71-78 v[k].push_back(std::move(v[j][i])): the element behind the last is constructed from the argument (vector.h:215-225),
   which leaves a moved-from value in v[j][i]; then rotate *)
Definition vv_push_moved (cap : nat) (m : vv A) (k j i : nat) : res (vv A) :=
  let* p := vv_ref m j i in
  let* e := vv_end A m k in
  if length (vv_data m) + 1 <=? cap then
    let* x := idx (vv_data m) p in
    let* d := put (vv_data m) p (moved x) in
    let* d := ins d e [x] in
    if length (vv_starts m) <? k + 1 then UB else Ok (VV d (vv_shift (vv_starts m) k 1))
  else UB.
(* 364-376 v.emplace_back(v[j]) and v.emplace_back(std::as_const(v)[j]); vector.h:255-286 reads the elements after
   reserve. A const bucket's move iterators copy, a mutable bucket's move the elements out *)
Definition move_out (cst : bool) (b n : nat) (d : list A) : list A :=
  if cst then d else firstn b d ++ map moved (firstn n (skipn b d)) ++ skipn (b + n) d.
Definition vv_emplace_own (cap : nat) (cst : bool) (m : vv A) (j : nat) : res (vv A) :=
  let* b := vv_begin A m j in let* e := vv_end A m j in
  if length (vv_data m) + (e - b) <=? cap then
    let* xs := range (vv_data m) b e in
    let d := move_out cst b (e - b) (vv_data m) ++ xs in
    Ok (VV d (vv_started A m ++ [length d]))
  else if e - b =? 0 then Ok (vv_emplace_back A m []) else UB.
(* 364-376 v.emplace_back(c) with a container of the caller's: the result and what the caller's container holds
   afterwards (cst: it is passed as const) *)
Definition vv_emplace_from (cst : bool) (m : vv A) (xs : list A) : vv A * list A :=
  (vv_emplace_back A m xs, if cst then xs else map moved xs).

(* ---------------- mutable_fws_multimap.h ---------------- *)
Variable lmax : nat.
(* m[j][i], 240-247 *)
Definition mm_ref (m : mm A) (j i : nat) : res nat :=
  let* x := idx (mm_index m) j in if i <? isz x then Ok (ib x + i) else UB.
(* 135-138, 493-503, 601-606 m[k].push_back(m[j][i]): the bucket grows first (509-555) *)
Definition mm_push_own (cap : nat) (m : mm A) (k j i : nat) : res (mm A) :=
  let* p := mm_ref m j i in
  let* x := idx (mm_index m) k in
  let* m := if isz x =? ic x then mm_grow A dflt lmax m k (ic x + 1) else Ok m in
  let* x := idx (mm_index m) k in
  let* v := deref cap p (mm_data m) in
  let* d := put (mm_data m) (ib x + isz x) v in
  Ok (MM (upd k (Ix (ib x) (isz x + 1) (ic x)) (mm_index m)) d (mm_free m) (mm_count m + 1)).
(* 146-158, 249-259 m[k].insert(position q, m[j][i]): the bucket grows and its elements move before the value is read *)
Definition mm_insert_own (cap : nat) (m : mm A) (k q j i : nat) : res (mm A) :=
  let* p := mm_ref m j i in
  let* x := idx (mm_index m) k in
  let* m := mm_reserve A dflt lmax m k (isz x + 1) in
  let* x := idx (mm_index m) k in
  if q <=? isz x then
    let* d := bmove (mm_data m) (ib x + q + 1) (ib x + q) (isz x - q) in
    let* v := deref cap p d in
    let* d := put d (ib x + q) v in
    Ok (MM (upd k (Ix (ib x) (isz x + 1) (ic x)) (mm_index m)) d (mm_free m) (mm_count m + 1))
  else UB.

(* ---------------- paged_vecvec.h ---------------- *)
Variable lmin lw : nat.
(* v[j][i], 43-56 and 187-205 *)
Definition pv_ref (m : pv A) (j i : nat) : res nat :=
  let* x := idx (pv_idx m) j in if i <? isz x then Ok (ib x + i) else UB.
(* 158-162 v[k].push_back(v[j][i]): resize_page (paged.h:52-61) copies the page and frees the old one, which writes
   the free list's link into it, before the value is read *)
Definition pv_push_own (cap : nat) (m : pv A) (k j i : nat) : res (pv A) :=
  let* p := pv_ref m j i in
  let* x := idx (pv_idx m) k in
  let* ' (g, y) := pg_resize A dflt lmin lw (pv_pg m) x (cut16 (isz x + 1)) in
  let* c := deref cap p (pg_data g) in
  let* v := val A c in
  let* d := put (pg_data g) (ib y + isz y - 1) (Val v) in
  Ok (PV (PG d (pg_nodes g)) (upd k y (pv_idx m))).
(* 164-170 v[k].insert(position q, v[j][i]): the value is copied into a temporary first *)
Definition pv_binsert_own (m : pv A) (k q j i : nat) : res (pv A) :=
  let* p := pv_ref m j i in
  let* c := idx (pg_data (pv_pg m)) p in
  let* v := val A c in
  pv_binsert A dflt lmin lw m k q v.
(* 310-318 v.emplace_back(v[j]): size() is read before, begin() and end() after create_page; a bucket finds its
   elements through the index (38-39, 178-181). paged.h:117-123 copies with memcpy *)
Definition pv_make_own (m : pv A) (j : nat) : res (pg A * ix) :=
  let* x := idx (pv_idx m) j in
  let* ' (g, y) := pg_create A dflt lmin (pv_pg m) (cut16 (isz x)) in
  let* d := bcopy (pg_data g) (ib y) (ib x) (isz x) in
  Ok (PG d (pg_nodes g), y).
Definition pv_emplace_own (m : pv A) (j : nat) : res (pv A) :=
  let* ' (g, y) := pv_make_own m j in Ok (PV g (pv_idx m ++ [y])).
(* 334-342 v.insert(k, v[j]) *)
Definition pv_insert_own (m : pv A) (k j : nat) : res (pv A) :=
  let* ' (g, y) := pv_make_own m j in
  let* i := ins (pv_idx m) k [y] in Ok (PV g i).
End Alias.
