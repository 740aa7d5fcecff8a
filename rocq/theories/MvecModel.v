(* Model of containers/mmap_vec.h over the memory mapped file of FileModel.v. An element is sz bytes (T is trivially copyable, 23);
   element counts are unbounded (in the code below 2^32), and growing the file succeeds (see C38_failed_resize_refuted). *)
From Verif Require Import Base FlatModel FileModel.
Section Mvec.
Variable sz : nat.            (* sizeof(T) *)
Variable zero : bytes.        (* the bytes of T{} *)
(* 177-178 *)
Record mv := MV { vm : mm; vused : nat }.
(* 25-27 the constructor, on a map opened with p of a file that contains f *)
Definition mv_open (f : bytes) (p : prot) : mv := let m := mm_open f p in MV m (mused m / sz).
Definition set_map (v : mv) (m : mm) : mv := MV m (vused v).
(* 66-74 operator[] without the asserts *)
Definition get (m : mm) (i : nat) : res bytes := mm_read m (i * sz) sz.
Definition put (m : mm) (i : nat) (x : bytes) : res mm := mm_write m (i * sz) x.
(* 76 reserve; the flag tells that it threw *)
Definition reserve (m : mm) (n : nat) : mm * bool := mm_resize m (n * sz) false.
(* copies to consecutive elements, as in 100-104 and 153-159 *)
Fixpoint fill (m : mm) (i : nat) (xs : list bytes) : res mm :=
  match xs with [] => Ok m | x :: xs => let* m := put m i x in fill m (S i) xs end.
(* std::rotate(begin() + a, begin() + mid, begin() + e); returns the position of what was first *)
Definition rotate (m : mm) (a mid e : nat) : res (mm * nat) :=
  if (mid <? a) || (e <? mid) then UB
  else if a =? e then Ok (m, a)
  else
    let* x := mm_read m (a * sz) ((mid - a) * sz) in
    let* y := mm_read m (mid * sz) ((e - mid) * sz) in
    let* m := mm_write m (a * sz) (y ++ x) in
    Ok (m, a + (e - mid)).
(* 144-151: the n elements from pos on are copied by cnt positions, the last one first *)
Fixpoint shift (m : mm) (pos n cnt : nat) : res mm :=
  match n with
  | 0 => Ok m
  | S n => let* x := get m (pos + n) in let* m := put m (pos + n + cnt) x in shift m pos n cnt
  end.

Inductive vop :=
  | VPush (x : bytes) | VPushOwn (i : nat) | VEmplace (x : bytes) | VGet (i : nat) | VPut (i : nat) (x : bytes) | VSize | VAll | VReserve (n : nat) | VResize (n : nat)
  | VSet (xs : list bytes) | VInsert (i : nat) (x : bytes) | VInsertIn (i : nat) (xs : list bytes) | VInsertFwd (i : nat) (xs : list bytes) | VReopen (p : prot).
Inductive vans := VNone | VThrow | VVal (x : bytes) | VNum (n : nat) | VVals (xs : list bytes).

(* 29-33 push_back: the size is increased first *)
Definition push (v : mv) (x : bytes) : res (mv * vans) :=
  let u := S (vused v) in
  let (m, t) := mm_resize (vm v) (sz * u) false in
  if t then Ok (MV m u, VThrow) else let* m := put m (u - 1) x in Ok (MV m u, VNone).
(* Element i of the vector v as argument of a function of v, read when the map is m. If the file has grown (mmap.h:196-205), the memory
   to which the reference points was unmapped: a dangling reference, even if the new mapping happens to have the same address. *)
Definition own_get (v : mv) (m : mm) (i : nat) : res bytes := if msize m =? msize (vm v) then get m i else UB.
(* push_back(v[i]) *)
Definition push_own (v : mv) (i : nat) : res (mv * vans) :=
  let u := S (vused v) in
  let (m, t) := mm_resize (vm v) (sz * u) false in
  if t then Ok (MV m u, VThrow) else let* x := own_get v m i in let* m := put m (u - 1) x in Ok (MV m u, VNone).
(* 35-42 emplace_back *)
Definition emplace (v : mv) (x : bytes) : res (mv * vans) :=
  let (m, t) := reserve (vm v) (vused v + 1) in
  if t then Ok (set_map v m, VThrow) else let* m := put m (vused v) x in Ok (MV m (vused v + 1), VNone).
(* emplace_back(v[i]) *)
Definition emplace_own (v : mv) (i : nat) : res (mv * vans) :=
  let (m, t) := reserve (vm v) (vused v + 1) in
  if t then Ok (set_map v m, VThrow) else let* x := own_get v m i in let* m := put m (vused v) x in Ok (MV m (vused v + 1), VNone).
(* 78-84 resize *)
Definition resize (v : mv) (n : nat) : res (mv * vans) :=
  let (m, t) := mm_resize (vm v) (n * sz) false in
  if t then Ok (set_map v m, VThrow) else let* m := fill m (vused v) (repeat zero (n - vused v)) in Ok (MV m n, VNone).
(* 86-107 set *)
Definition set (v : mv) (xs : list bytes) : res (mv * vans) :=
  let (m, t) := reserve (vm v) (length xs) in
  if t then Ok (set_map v m, VThrow) else let* m := fill m 0 xs in Ok (MV m (length xs), VNone).
(* 109-119 insert(it, el) *)
Definition insert1 (v : mv) (i : nat) (x : bytes) : res (mv * vans) :=
  let old := vused v in
  let (m, t) := reserve (vm v) (old + 1) in
  if t then Ok (set_map v m, VThrow)
  else let* m := put m old x in
       let* ' (m, p) := rotate m i old (old + 1) in Ok (MV m (old + 1), VNum p).
(* insert(it, v[j]) *)
Definition insert_own (v : mv) (i j : nat) : res (mv * vans) :=
  let old := vused v in
  let (m, t) := reserve (vm v) (old + 1) in
  if t then Ok (set_map v m, VThrow)
  else let* x := own_get v m j in
       let* m := put m old x in
       let* ' (m, p) := rotate m i old (old + 1) in Ok (MV m (old + 1), VNum p).
(* 121-133 insert(pos, first, last) with input iterators; the loop *)
Fixpoint append (v : mv) (xs : list bytes) : res (mv * bool) :=
  match xs with
  | [] => Ok (v, false)
  | x :: xs => let (m, t) := reserve (vm v) (vused v + 1) in
               if t then Ok (set_map v m, true)
               else let* m := put m (vused v) x in append (MV m (vused v + 1)) xs
  end.
Definition insert_in (v : mv) (i : nat) (xs : list bytes) : res (mv * vans) :=
  let old := vused v in
  let* ' (v, t) := append v xs in
  if t then Ok (v, VThrow) else let* ' (m, p) := rotate (vm v) i old (vused v) in Ok (set_map v m, VNum p).
(* 135-164 insert(pos, first, last) with forward iterators *)
Definition insert_fwd (v : mv) (i : nat) (xs : list bytes) : res (mv * vans) :=
  if vused v =? 0 then let* ' (v, a) := set v xs in Ok (v, match a with VNone => VNum 0 | _ => a end)
  else if vused v <? i then UB
  else
    let (m, t) := reserve (vm v) (vused v + length xs) in
    if t then Ok (set_map v m, VThrow)
    else let* m := shift m i (vused v - i) (length xs) in
         let* m := fill m i xs in Ok (MV m (vused v + length xs), VNum i).
(* 46-64 begin() to end() *)
Fixpoint all (m : mm) (i n : nat) : res (list bytes) :=
  match n with 0 => Ok [] | S n => let* x := get m i in let* xs := all m (S i) n in Ok (x :: xs) end.

Definition mv_step (v : mv) (o : vop) : res (mv * vans) :=
  match o with
  | VPush x => push v x
  | VPushOwn i => push_own v i
  | VEmplace x => emplace v x
  | VGet i => let* x := get (vm v) i in Ok (v, VVal x)
  | VPut i x => let* m := put (vm v) i x in Ok (set_map v m, VNone)
  | VSize => Ok (v, VNum (vused v))                               (* 44 *)
  | VAll => let* xs := all (vm v) 0 (vused v) in Ok (v, VVals xs)
  | VReserve n => let (m, t) := reserve (vm v) n in Ok (set_map v m, if t then VThrow else VNone)
  | VResize n => resize v n
  | VSet xs => set v xs
  | VInsert i x => insert1 v i x
  | VInsertIn i xs => insert_in v i xs
  | VInsertFwd i xs => insert_fwd v i xs
  | VReopen p => Ok (mv_open (mfile (mm_close (vm v))) p, VNone)  (* the vector is destroyed and its file opened again *)
  end.
End Mvec.
