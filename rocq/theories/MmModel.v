(* Model of mutable_fws_multimap.h (dynamic_fws_multimap_base) with a 32 bit size type.
   The vector members are sequences (C14). Elements are trivially copyable, as grow_bucket (513) requires,
   so destructor calls do nothing. Positions and counts are natural numbers: the data vector holds fewer
   than 2^32 elements. The requested capacity of a bucket is a 32 bit number. *)
From Verif Require Import Base ArithModel FlatModel.

Record ix := Ix { ib : nat; isz : nat; ic : nat }.      (* 32-36 index_type: begin_, size_, capacity_ *)

(* 515-517 next_power_of_two and get_order (613-615) *)
Definition order_of (c : nat) : nat := N.to_nat (trailing_zeros 32 (N.of_nat c)).
Definition cap_for (req : nat) : nat := N.to_nat (next_power_of_two 32 (N.of_nat req)).

(* std::move / std::move_backward / a copy of n elements inside a vector *)
Definition bmove {B} (d : list B) (dst src n : nat) : res (list B) :=
  if n =? 0 then Ok d
  else if (dst + n <=? length d) && (src + n <=? length d)
  then Ok (firstn dst d ++ firstn n (skipn src d) ++ skipn (dst + n) d) else UB.
(* memcpy: the two ranges must not overlap *)
Definition bcopy {B} (d : list B) (dst src n : nat) : res (list B) :=
  if (n =? 0) || (dst + n <=? src) || (src + n <=? dst) then bmove d dst src n else UB.

Section Mm.
Variable A : Type.
Variable dflt : A.
Variable lmax : nat.     (* Log2MaxEntriesPerBucket, 23 *)

Record mm := MM { mm_index : list ix; mm_data : list A; mm_free : list (list ix); mm_count : nat }.  (* 617-620 *)
Definition mm_new : mm := MM [] [] (repeat [] (lmax + 1)) 0.

(* 557-572 get_free_bucket: the last free bucket of this order *)
Definition mm_pop (free : list (list ix)) (o : nat) : option (ix * list (list ix)) :=
  match nth_error free o with
  | Some v => match rev v with x :: r => Some (x, upd o (rev r) free) | [] => None end
  | None => None
  end.
(* 573-581 release_bucket: the free lists afterwards *)
Definition mm_release (free : list (list ix)) (x : ix) : res (list (list ix)) :=
  if ic x =? 0 then Ok free
  else let* v := idx free (order_of (ic x)) in
       Ok (upd (order_of (ic x)) (v ++ [Ix (ib x) 0 (ic x)]) free).
(* 509-555 grow_bucket *)
Definition mm_grow (m : mm) (k req : nat) : res mm :=
  let* x := idx (mm_index m) k in
  let nc := cap_for req in
  let* _ := verify (order_of nc <=? lmax) in
  match mm_pop (mm_free m) (order_of nc) with
  | Some (f, free) =>
      let* ' (d, free) :=
        if ic x =? 0 then Ok (mm_data m, free)
        else let* d := bcopy (mm_data m) (ib f) (ib x) (isz x) in
             let* free := mm_release free x in Ok (d, free) in
      Ok (MM (upd k (Ix (ib f) (isz x) (ic f)) (mm_index m)) d free (mm_count m))
  | None =>
      if ib x + ic x =? length (mm_data m)
      then Ok (MM (upd k (Ix (ib x) (isz x) nc) (mm_index m))
                  (mm_data m ++ repeat dflt (nc - ic x)) (mm_free m) (mm_count m))
      else
        let nb := length (mm_data m) in
        let* d := bcopy (mm_data m ++ repeat dflt nc) nb (ib x) (isz x) in
        let* free := mm_release (mm_free m) x in
        Ok (MM (upd k (Ix nb (isz x) nc) (mm_index m)) d free (mm_count m))
  end.
(* 493-503 insert_new_entry, 601-611 push_back_entry, emplace_back_entry *)
Definition mm_push (m : mm) (k : nat) (v : A) : res mm :=
  let* x := idx (mm_index m) k in
  let* m := if isz x =? ic x then mm_grow m k (ic x + 1) else Ok m in
  let* x := idx (mm_index m) k in
  let* d := put (mm_data m) (ib x + isz x) v in
  Ok (MM (upd k (Ix (ib x) (isz x + 1) (ic x)) (mm_index m)) d (mm_free m) (mm_count m + 1)).
(* 160-165 reserve of a bucket *)
Definition mm_reserve (m : mm) (k n : nat) : res mm :=
  let* x := idx (mm_index m) k in
  if ic x <? n then mm_grow m k n else Ok m.
(* 249-259 prepare_insert, 146-158 insert in front of position i *)
Definition mm_insert (m : mm) (k i : nat) (v : A) : res mm :=
  let* x := idx (mm_index m) k in
  let* m := mm_reserve m k (isz x + 1) in
  let* x := idx (mm_index m) k in
  if i <=? isz x then
    let* d := bmove (mm_data m) (ib x + i + 1) (ib x + i) (isz x - i) in
    let* d := put d (ib x + i) v in
    Ok (MM (upd k (Ix (ib x) (isz x + 1) (ic x)) (mm_index m)) d (mm_free m) (mm_count m + 1))
  else UB.
(* the loop of 180-182 *)
Fixpoint mm_fill (d : list A) (p n : nat) (v : A) : res (list A) :=
  match n with O => Ok d | S n => let* d := put d p v in mm_fill d (S p) n v end.
(* 167-186 resize of a bucket *)
Definition mm_resize (m : mm) (k n : nat) (v : A) : res mm :=
  let* x0 := idx (mm_index m) k in
  let* m := mm_reserve m k n in
  let* x := idx (mm_index m) k in
  let x' := Ix (ib x) n (ic x) in
  if n <? isz x0 then
    Ok (MM (upd k x' (mm_index m)) (mm_data m) (mm_free m) (mm_count m - (isz x0 - n)))
  else
    let* d := mm_fill (mm_data m) (ib x + isz x0) (n - isz x0) v in
    Ok (MM (upd k x' (mm_index m)) d (mm_free m) (mm_count m + (n - isz x0))).
(* 188-193 pop_back *)
Definition mm_popb (m : mm) (k : nat) : res mm :=
  let* x := idx (mm_index m) k in
  if isz x =? 0 then Ok m else mm_resize m k (isz x - 1) dflt.
(* 195-204 clear of a bucket *)
Definition mm_bclear (m : mm) (k : nat) : res mm :=
  let* x := idx (mm_index m) k in
  Ok (MM (upd k (Ix (ib x) 0 (ic x)) (mm_index m)) (mm_data m) (mm_free m) (mm_count m - isz x)).
(* 206-217 erase(pos): the swaps move the element behind the others; result: the returned iterator as a
   position in the bucket *)
Definition mm_erase (m : mm) (k i : nat) : res (mm * nat) :=
  let* x := idx (mm_index m) k in
  if i <? isz x then
    let* e := idx (mm_data m) (ib x + i) in
    let* d := bmove (mm_data m) (ib x + i) (ib x + i + 1) (isz x - 1 - i) in
    let* d := put d (ib x + isz x - 1) e in
    Ok (MM (upd k (Ix (ib x) (isz x - 1) (ic x)) (mm_index m)) d (mm_free m) (mm_count m - 1), isz x - 1)
  else UB.
(* 219-231 erase(first, last) *)
Definition mm_erase_range (m : mm) (k i j : nat) : res (mm * nat) :=
  let* x := idx (mm_index m) k in
  if (i <=? j) && (j <=? isz x) then
    if i =? j then Ok (m, isz x)
    else
      let* d := bmove (mm_data m) (ib x + i) (ib x + j) (isz x - j) in
      Ok (MM (upd k (Ix (ib x) (isz x - (j - i)) (ic x)) (mm_index m)) d (mm_free m) (mm_count m - (j - i)),
          isz x - (j - i))
  else UB.
(* 384-389 operator[], 421 emplace_back, 423-430 get_or_create: index_ grows *)
Definition mm_touch (m : mm) (k : nat) : mm :=
  MM (if length (mm_index m) <=? k then mm_index m ++ repeat (Ix 0 0 0) (k + 1 - length (mm_index m)) else mm_index m)
     (mm_data m) (mm_free m) (mm_count m).
Definition mm_get_or_create (m : mm) (k : nat) : mm :=
  MM (if length (mm_index m) <=? k + 1 then res_resize (Ix 0 0 0) (mm_index m) (k + 1) else mm_index m)
     (mm_data m) (mm_free m) (mm_count m).
(* 432-436 erase(key); element_count_ is left alone *)
Definition mm_erase_key (m : mm) (k : nat) : res mm :=
  match nth_error (mm_index m) k with
  | None => Ok m
  | Some x => if ic x =? 0 then Ok m
              else let* free := mm_release (mm_free m) x in
                   Ok (MM (upd k (Ix (ib x) 0 0) (mm_index m)) (mm_data m) free (mm_count m))
  end.
(* 480-487 clear *)
Definition mm_clear (m : mm) : mm := MM [] [] (map (fun _ => []) (mm_free m)) 0.

(* 68-82 iteration over a bucket; 391-407 at *)
Definition mm_bucket (m : mm) (k : nat) : res (list A) :=
  let* x := idx (mm_index m) k in range (mm_data m) (ib x) (ib x + isz x).
Definition mm_at (m : mm) (k : nat) : res (list A) :=
  let* _ := verify (k <? length (mm_index m)) in mm_bucket m k.
(* 92-106, 122-125, 240-247 element access; operator[] asserts *)
Definition mm_get (m : mm) (k i : nat) : res A :=
  let* x := idx (mm_index m) k in if i <? isz x then idx (mm_data m) (ib x + i) else UB.
Definition mm_set (m : mm) (k i : nat) (v : A) : res mm :=
  let* x := idx (mm_index m) k in
  if i <? isz x then let* d := put (mm_data m) (ib x + i) v in Ok (MM (mm_index m) d (mm_free m) (mm_count m)) else UB.
Definition mm_bucket_at (m : mm) (k i : nat) : res A :=
  let* x := idx (mm_index m) k in
  let* _ := verify (i <? isz x) in idx (mm_data m) (ib x + i).
Definition mm_bucket_size (m : mm) (k : nat) : res nat := let* x := idx (mm_index m) k in Ok (isz x).
(* 462-468: iteration from begin() to end() *)
Fixpoint mm_all_from (m : mm) (k n : nat) : res (list (list A)) :=
  match n with
  | O => Ok []
  | S n => let* x := mm_at m k in let* xs := mm_all_from m (S k) n in Ok (x :: xs)
  end.
Definition mm_all (m : mm) : res (list (list A)) := mm_all_from m 0 (length (mm_index m)).
(* 314-323 ++it and --it of a bucket iterator at position i *)
Definition mm_it_inc (i : nat) : nat := i + 1.
Definition mm_it_dec (i : nat) : nat := i + 1.

Inductive mm_op := BTouch (k : nat) | BGetOrCreate (k : nat) | BPush (k : nat) (v : A) | BInsert (k i : nat) (v : A)
| BReserve (k n : nat) | BResize (k n : nat) (v : A) | BPop (k : nat) | BClear (k : nat) | BErase (k i : nat)
| BEraseRange (k i j : nat) | BEraseKey (k : nat) | BClearAll | BSet (k i : nat) (v : A)
| BAt (k : nat) | BGet (k i : nat) | BBucketAt (k i : nat) | BBucketSize (k : nat) | BSize | BCount | BAll.
(* grow_bucket checks the order before it changes anything, and it is the first thing that can throw *)
Definition mm_step (m : mm) (o : mm_op) : res (mm * vout A) :=
  match o with
  | BTouch k => Ok (mm_touch m k, XNone)
  | BGetOrCreate k => Ok (mm_get_or_create m k, XNone)
  | BPush k v => become A m (mm_push m k v)
  | BInsert k i v => become A m (mm_insert m k i v)
  | BReserve k n => become A m (mm_reserve m k n)
  | BResize k n v => become A m (mm_resize m k n v)
  | BPop k => become A m (mm_popb m k)
  | BClear k => become A m (mm_bclear m k)
  | BErase k i => let* ' (m, r) := mm_erase m k i in Ok (m, XNum r)
  | BEraseRange k i j => let* ' (m, r) := mm_erase_range m k i j in Ok (m, XNum r)
  | BEraseKey k => become A m (mm_erase_key m k)
  | BClearAll => Ok (mm_clear m, XNone)
  | BSet k i v => become A m (mm_set m k i v)
  | BAt k => answer A m (mm_at m k) XList
  | BGet k i => answer A m (mm_get m k i) XVal
  | BBucketAt k i => answer A m (mm_bucket_at m k i) XVal
  | BBucketSize k => answer A m (mm_bucket_size m k) XNum
  | BSize => Ok (m, XNum (length (mm_index m)))
  | BCount => Ok (m, XNum (mm_count m))
  | BAll => answer A m (mm_all m) XAll
  end.
End Mm.
Arguments MM {A}. Arguments mm_index {A}. Arguments mm_data {A}. Arguments mm_free {A}. Arguments mm_count {A}. Arguments mm_new {A}.
Arguments BTouch {A}. Arguments BGetOrCreate {A}. Arguments BPush {A}. Arguments BInsert {A}. Arguments BReserve {A}.
Arguments BResize {A}. Arguments BPop {A}. Arguments BClear {A}. Arguments BErase {A}. Arguments BEraseRange {A}.
Arguments BEraseKey {A}. Arguments BClearAll {A}. Arguments BSet {A}. Arguments BAt {A}. Arguments BGet {A}.
Arguments BBucketAt {A}. Arguments BBucketSize {A}. Arguments BSize {A}. Arguments BCount {A}. Arguments BAll {A}.
