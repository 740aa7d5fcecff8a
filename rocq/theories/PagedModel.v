(* Model of paged.h and paged_vecvec.h with 32 bit positions and 16 bit page sizes.
   The vectors are sequences (C14). A free page's first bytes hold the start of the next free page: the
   first cell of the page becomes a Link and the other cells the link covers become Junk. Reading an
   element from such a cell is UB in the model. Data positions are natural numbers below 2^32 - 1. *)
From Verif Require Import Base ArithModel FlatModel MmModel.

Section Paged.
Variable A : Type.
Variable dflt : A.
Variable lmin : nat.   (* MinPageSize = 2^lmin, paged.h:26-29; MaxPageSize = 2^15, paged.h:30 *)
Variable lw : nat.     (* cells covered by a link: sizeof(size_type) / sizeof(value_type), rounded up *)

Inductive cell := Val (a : A) | Link (n : option nat) | Junk.
(* node::next_ of every order (None: numeric_limits::max()), and data_: paged.h:150-154 *)
Record pg := PG { pg_data : list cell; pg_nodes : list (option nat) }.
Definition free_list_size : nat := 15 - lmin + 1.                      (* 49-50 *)
Definition pg_new : pg := PG [] (repeat None free_list_size).
(* page_t 15-22 is an ix: start_, size_, capacity_ *)

(* 44-47 free_list_index, computed in 32 bits *)
Definition free_list_index (c : N) : N :=
  wrap32 (constexpr_trailing_zeros 32 c + W32 - constexpr_trailing_zeros 16 (2 ^ N.of_nat lmin)).
Definition page_capacity (size : N) : N := next_power_of_two 16 (N.max (2 ^ N.of_nat lmin) size).
(* 142-148 pop *)
Definition pg_pop (m : pg) (i start : nat) : res pg :=
  let* c := idx (pg_data m) start in
  match c with
  | Link n => Ok (PG (pg_data m) (upd i n (pg_nodes m)))
  | _ => UB
  end.
(* 63-75 create_page *)
Definition pg_create (m : pg) (size : nat) : res (pg * ix) :=
  let c := page_capacity (N.of_nat size) in
  let i := free_list_index c in
  let* _ := verify (i <? N.of_nat free_list_size)%N in
  let c := N.to_nat c in let i := N.to_nat i in
  let* n := idx (pg_nodes m) i in
  match n with
  | Some start => let* m := pg_pop m i start in Ok (m, Ix start size c)
  | None => Ok (PG (pg_data m ++ repeat (Val dflt) c) (pg_nodes m), Ix (length (pg_data m)) size c)
  end.
(* 94-98 write and 137-140 push: the link at the page's start *)
Fixpoint junk (d : list cell) (p n : nat) : res (list cell) :=
  match n with O => Ok d | S n => let* d := put d p Junk in junk d (S p) n end.
Definition pg_push (m : pg) (i start : nat) : res pg :=
  let* n := idx (pg_nodes m) i in
  let* d := junk (pg_data m) start lw in
  let* d := put d start (Link n) in
  Ok (PG d (upd i (Some start) (pg_nodes m))).
(* 77-84 free_page *)
Definition pg_free (m : pg) (x : ix) : res pg :=
  if ic x =? 0 then Ok m
  else let i := free_list_index (N.of_nat (ic x)) in
       let* _ := verify (i <? N.of_nat free_list_size)%N in
       pg_push m (N.to_nat i) (ib x).
(* 52-61 resize_page, 113-115 copy *)
Definition pg_resize (m : pg) (x : ix) (size : nat) : res (pg * ix) :=
  if size <=? ic x then Ok (m, Ix (ib x) size (ic x))
  else
    let* ' (m, y) := pg_create m size in
    let* d := bcopy (pg_data m) (ib y) (ib x) (isz x) in
    let* m := pg_free (PG d (pg_nodes m)) x in
    Ok (m, y).
(* 117-123 copy from a container *)
Definition pg_fill (m : pg) (x : ix) (xs : list A) : res pg :=
  if length xs =? 0 then Ok m
  else if ib x + length xs <=? length (pg_data m)
  then Ok (PG (firstn (ib x) (pg_data m) ++ map Val xs ++ skipn (ib x + length xs) (pg_data m)) (pg_nodes m)) else UB.

(* ---------------- paged_vecvec.h ---------------- *)
Record pv := PV { pv_pg : pg; pv_idx : list ix }.      (* 356-357 *)
Definition pv_new : pv := PV pg_new [].
(* 310-318 emplace_back: the size is cut down to 16 bits *)
Definition cut16 (n : nat) : nat := N.to_nat (N.of_nat n mod 65536).
Definition pv_make (m : pv) (xs : list A) : res (pg * ix) :=
  let* ' (g, x) := pg_create (pv_pg m) (cut16 (length xs)) in
  let* g := pg_fill g x xs in Ok (g, x).
Definition pv_emplace (m : pv) (xs : list A) : res pv :=
  let* ' (g, x) := pv_make m xs in Ok (PV g (pv_idx m ++ [x])).
Definition pv_emplace_empty (m : pv) : res pv :=         (* 326 *)
  let* ' (g, x) := pg_create (pv_pg m) 0 in Ok (PV g (pv_idx m ++ [x])).
(* 334-342 insert *)
Definition pv_insert (m : pv) (k : nat) (xs : list A) : res pv :=
  let* ' (g, x) := pv_make m xs in
  let* i := ins (pv_idx m) k [x] in Ok (PV g i).
(* 344-349 resize *)
Fixpoint free_all (g : pg) (xs : list ix) : res pg :=
  match xs with [] => Ok g | x :: xs => let* g := pg_free g x in free_all g xs end.
Definition pv_resize (m : pv) (n : nat) : res pv :=
  let* g := free_all (pv_pg m) (skipn n (pv_idx m)) in
  Ok (PV g (res_resize (Ix 0 0 0) (pv_idx m) n)).
(* 351-354 clear, paged.h:125-130 *)
Definition pv_clear (m : pv) : pv := PV (PG [] (map (fun _ => None) (pg_nodes (pv_pg m)))) [].
(* 158-162 bucket push_back *)
Definition pv_push (m : pv) (k : nat) (v : A) : res pv :=
  let* x := idx (pv_idx m) k in
  let* ' (g, y) := pg_resize (pv_pg m) x (cut16 (isz x + 1)) in
  let* d := put (pg_data g) (ib y + isz y - 1) (Val v) in
  Ok (PV (PG d (pg_nodes g)) (upd k y (pv_idx m))).
(* 164-170 bucket insert: push_back, then rotate the new last element to position i *)
Definition pv_binsert (m : pv) (k i : nat) (v : A) : res pv :=
  let* x := idx (pv_idx m) k in
  if i <=? isz x then
    let* m := pv_push m k v in
    let* y := idx (pv_idx m) k in
    let* e := idx (pg_data (pv_pg m)) (ib y + isz x) in
    let* d := bmove (pg_data (pv_pg m)) (ib y + i + 1) (ib y + i) (isz x - i) in
    let* d := put d (ib y + i) e in
    Ok (PV (PG d (pg_nodes (pv_pg m))) (pv_idx m))
  else UB.
(* element access 187-205, 43-56: operator[] asserts, at checks *)
Definition val (c : cell) : res A := match c with Val a => Ok a | _ => UB end.
Definition pv_get (m : pv) (k i : nat) : res A :=
  let* x := idx (pv_idx m) k in
  if i <? isz x then let* c := idx (pg_data (pv_pg m)) (ib x + i) in val c else UB.
Definition pv_bucket_at (m : pv) (k i : nat) : res A :=
  let* x := idx (pv_idx m) k in
  let* _ := verify (i <? isz x) in
  let* c := idx (pg_data (pv_pg m)) (ib x + i) in val c.
Definition pv_set (m : pv) (k i : nat) (v : A) : res pv :=
  let* x := idx (pv_idx m) k in
  if i <? isz x then
    let* d := put (pg_data (pv_pg m)) (ib x + i) (Val v) in
    Ok (PV (PG d (pg_nodes (pv_pg m))) (pv_idx m)) else UB.
(* iteration over a bucket: 38-39, 178-181 *)
Fixpoint vals (l : list cell) : res (list A) :=
  match l with [] => Ok [] | c :: l => let* a := val c in let* r := vals l in Ok (a :: r) end.
Definition pv_bucket (m : pv) (k : nat) : res (list A) :=
  let* x := idx (pv_idx m) k in
  if isz x =? 0 then Ok []
  else let* cs := range (pg_data (pv_pg m)) (ib x) (ib x + isz x) in vals cs.
Definition pv_at (m : pv) (k : nat) : res (list A) :=       (* 281-289 *)
  let* _ := verify (k <? length (pv_idx m)) in pv_bucket m k.
Definition pv_front (m : pv) : res (list A) := pv_at m 0.   (* 291 *)
(* 292: size() - 1 wraps to the largest key *)
Definition pv_back (m : pv) : res (list A) :=
  if length (pv_idx m) =? 0 then Throw else pv_at m (length (pv_idx m) - 1).
(* 300-303 iteration: begin() is front() *)
Fixpoint pv_all_from (m : pv) (k n : nat) : res (list (list A)) :=
  match n with
  | O => Ok []
  | S n => let* x := pv_bucket m k in let* xs := pv_all_from m (S k) n in Ok (x :: xs)
  end.
Definition pv_all (m : pv) : res (list (list A)) :=
  let* _ := verify (0 <? length (pv_idx m)) in pv_all_from m 0 (length (pv_idx m)).

Inductive pv_op := PEmplace (xs : list A) | PEmplaceEmpty | PInsert (k : nat) (xs : list A) | PResize (n : nat) | PClear
| PPush (k : nat) (v : A) | PBInsert (k i : nat) (v : A) | PSet (k i : nat) (v : A) | PGet (k i : nat)
| PBucketAt (k i : nat) | PAt (k : nat) | PFront | PBack | PSize | PAll.
(* create_page checks before it changes anything *)
Definition pv_step (m : pv) (o : pv_op) : res (pv * vout A) :=
  match o with
  | PEmplace xs => become A m (pv_emplace m xs)
  | PEmplaceEmpty => become A m (pv_emplace_empty m)
  | PInsert k xs => become A m (pv_insert m k xs)
  | PResize n => become A m (pv_resize m n)
  | PClear => Ok (pv_clear m, XNone)
  | PPush k v => become A m (pv_push m k v)
  | PBInsert k i v => become A m (pv_binsert m k i v)
  | PSet k i v => become A m (pv_set m k i v)
  | PGet k i => answer A m (pv_get m k i) XVal
  | PBucketAt k i => answer A m (pv_bucket_at m k i) XVal
  | PAt k => answer A m (pv_at m k) XList
  | PFront => answer A m (pv_front m) XList
  | PBack => answer A m (pv_back m) XList
  | PSize => Ok (m, XNum (length (pv_idx m)))
  | PAll => answer A m (pv_all m) XAll
  end.
End Paged.
Arguments Val {A}. Arguments Link {A}. Arguments Junk {A}. Arguments PG {A}. Arguments pg_data {A}. Arguments pg_nodes {A}.
Arguments PV {A}. Arguments pv_pg {A}. Arguments pv_idx {A}.
Arguments PEmplace {A}. Arguments PEmplaceEmpty {A}. Arguments PInsert {A}. Arguments PResize {A}. Arguments PClear {A}.
Arguments PPush {A}. Arguments PBInsert {A}. Arguments PSet {A}. Arguments PGet {A}. Arguments PBucketAt {A}. Arguments PAt {A}.
Arguments PFront {A}. Arguments PBack {A}. Arguments PSize {A}. Arguments PAll {A}.
