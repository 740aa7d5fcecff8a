(* Model of include/cista/containers/bitset.h and include/cista/containers/bitvec.h.
   Both keep a sequence of 64-bit blocks (std::array resp. cista::vector); the code of the two
   classes is the same text up to num_blocks / blocks_.size() and Size / size_, so block level
   functions are written once and cite both. Indices and sizes are natural numbers: the types
   used (size_t, uint32_t) do not wrap as long as the vector fits its size type.
   Reading or writing a block that does not exist is UB. *)
From Verif Require Import Base ArithModel.

(* bitset.h:20, bitvec.h:26-27 bits_per_block *)
Definition BPB : nat := 64.
(* bitset.h:21-22, bitvec.h:50-53 num_blocks *)
Definition num_blocks (bits : nat) : nat := bits / BPB + (if bits mod BPB =? 0 then 0 else 1).

(* blocks_[i] *)
Definition rdb (b : list N) (i : nat) : res N :=
  match nth_error b i with Some x => Ok x | None => UB end.
Definition wrb (b : list N) (i : nat) (x : N) : res (list N) :=
  if i <? length b then Ok (upd i x b) else UB.
(* block_t{1U} << bit *)
Definition bit_mask (bit : nat) : N := shl64 1 (N.of_nat bit).

(* bitset.h:43-53, bitvec.h:89-121 set(i, val), not atomic *)
Definition set_bit (b : list N) (i : nat) (v : bool) : res (list N) :=
  let* x := rdb b (i / BPB) in
  let mask := bit_mask (i mod BPB) in
  wrb b (i / BPB) (if v then N.lor x mask else N.land x (N.lxor u64_max mask)).

(* bitset.h:67-74, bitvec.h:138-147 test(i) *)
Definition test (size : nat) (b : list N) (i : nat) : res bool :=
  if size <=? i then Ok false else
  let* x := rdb b (i / BPB) in
  Ok (negb (N.land x (bit_mask (i mod BPB)) =? 0)%N).

(* blocks_.size() - 1; an empty sequence makes the index wrap to the largest value, which no
   block has *)
Definition last_idx (b : list N) : res nat := if length b =? 0 then UB else Ok (length b - 1).
(* bitset.h:89-96, bitvec.h:249-256 sanitized_last_block *)
Definition sanitize (size : nat) (x : N) : N :=
  if size mod BPB =? 0 then x
  else N.land x (not64 (shl64 u64_max (N.of_nat (size mod BPB)))).
Definition sanitized_last_block (size : nat) (b : list N) : res N :=
  let* l := last_idx b in
  let* x := rdb b l in Ok (sanitize size x).

(* bitset.h:59-65, bitvec.h:127-136 count: loop over all blocks but the last *)
Fixpoint sum_pop (l : list N) : N :=
  match l with [] => 0%N | x :: l => (popcount x + sum_pop l)%N end.
Definition count (size : nat) (b : list N) : res N :=
  let* l := last_idx b in
  let* x := sanitized_last_block size b in
  Ok (sum_pop (firstn l b) + popcount x)%N.

(* bitset.h:78-85, bitvec.h:235-245 any *)
Definition any (size : nat) (b : list N) : res bool :=
  let* l := last_idx b in
  if existsb (fun x => negb (x =? 0)%N) (firstn l b) then Ok true
  else let* x := sanitized_last_block size b in Ok (negb (x =? 0)%N).

(* bitset.h:98-113, bitvec.h:149-167 for_each_set_bit; result: the indices f is called with *)
Definition check_block (i : nat) (x : N) : list nat :=
  if (x =? 0)%N then []
  else map (fun bit => i * BPB + bit)
           (filter (fun bit => negb (N.land x (bit_mask bit) =? 0)%N) (seq 0 BPB)).
Fixpoint check_blocks (i : nat) (l : list N) : list nat :=
  match l with [] => [] | x :: l => check_block i x ++ check_blocks (S i) l end.
Definition for_each_set_bit (size : nat) (b : list N) : res (list nat) :=
  let* l := last_idx b in
  let* x := sanitized_last_block size b in
  Ok (check_blocks 0 (firstn l b) ++ check_block l x).

(* bitset.h:115-122, bitvec.h:258-265 to_string; true stands for '1' *)
Fixpoint mapR {A B} (g : A -> res B) (l : list A) : res (list B) :=
  match l with
  | [] => Ok []
  | a :: l => let* x := g a in let* xs := mapR g l in Ok (x :: xs)
  end.
Definition to_string (size : nat) (b : list N) : res (list bool) :=
  mapR (fun i => test size b (size - i - 1)) (seq 0 size).

(* bitset.h:124-131, bitvec.h:273-285 operator== on vectors of the same size *)
Fixpoint eq_blocks (a b : list N) (idxs : list nat) : res bool :=
  match idxs with
  | [] => Ok true
  | i :: idxs => let* x := rdb a i in
                 let* y := rdb b i in
                 if (x =? y)%N then eq_blocks a b idxs else Ok false
  end.
Definition equal_ (size : nat) (a b : list N) : res bool :=
  let* l := last_idx a in
  let* r := eq_blocks a b (seq 0 l) in
  if r then let* x := sanitized_last_block size a in
            let* y := sanitized_last_block size b in Ok (x =? y)%N
  else Ok false.

(* bitset.h:133-155, bitvec.h:287-308 operator<, downwards over the other blocks *)
Fixpoint lt_blocks (a b : list N) (idxs : list nat) : res bool :=
  match idxs with
  | [] => Ok false
  | i :: idxs => let* x := rdb a i in
                 let* y := rdb b i in
                 if (x <? y)%N then Ok true
                 else if (y <? x)%N then Ok false else lt_blocks a b idxs
  end.
Definition less (size : nat) (a b : list N) : res bool :=
  let* x := sanitized_last_block size a in
  let* y := sanitized_last_block size b in
  if (x <? y)%N then Ok true else if (y <? x)%N then Ok false
  else lt_blocks a b (rev (seq 0 (length a - 1))).

(* for i in idxs: blocks_[i] = f(blocks_, i), in place *)
Fixpoint assign_loop (f : list N -> nat -> res N) (idxs : list nat) (b : list N) : res (list N) :=
  match idxs with
  | [] => Ok b
  | i :: idxs => let* x := f b i in
                 let* b := wrb b i x in
                 assign_loop f idxs b
  end.

(* bitset.h:172-191, bitvec.h:328-357 &=, |=, ^= *)
Definition zip_op (op : N -> N -> N) (a o : list N) : res (list N) :=
  assign_loop (fun a i => let* x := rdb a i in let* y := rdb o i in Ok (op x y))
              (seq 0 (length a)) a.
(* bitset.h:193-199, bitvec.h:359-365 operator~ *)
Definition flip (a : list N) : list N := map not64 a.

(* bitset.h:233-258, bitvec.h:399-423: >>= with more than one block *)
Definition shr_blocks (b : list N) (shift : nat) : res (list N) :=
  if shift =? 0 then Ok b else
  let sb := shift / BPB in
  let bits := N.of_nat (shift mod BPB) in
  let border := length b - sb - 1 in
  let* b :=
    if shift mod BPB =? 0
    then assign_loop (fun b i => rdb b (i + sb)) (seq 0 (border + 1)) b
    else let* b := assign_loop (fun b i =>
                     let* x := rdb b (i + sb) in
                     let* y := rdb b (i + sb + 1) in
                     Ok (N.lor (shr64 x bits) (shl64 y (64 - bits)))) (seq 0 border) b in
         let* x := rdb b (length b - 1) in
         wrb b border (shr64 x bits) in
  assign_loop (fun _ _ => Ok 0%N) (seq (border + 1) (length b - (border + 1))) b.

(* bitset.h:219-232, bitvec.h:384-398 (reset() is the caller's) *)
Definition shr (size : nat) (b : list N) (shift : nat) : res (list N) :=
  let* b := if size mod BPB =? 0 then Ok b
            else let* x := sanitized_last_block size b in
                 let* l := last_idx b in wrb b l x in
  if length b =? 1 then let* x := rdb b 0 in wrb b 0 (shr64 x (N.of_nat shift))
  else shr_blocks b shift.

(* bitset.h:267-296, bitvec.h:432-461: <<= *)
Definition shl (b : list N) (shift : nat) : res (list N) :=
  if length b =? 1 then let* x := rdb b 0 in wrb b 0 (shl64 x (N.of_nat shift)) else
  if shift =? 0 then Ok b else
  let sb := shift / BPB in
  let bits := N.of_nat (shift mod BPB) in
  let* b :=
    if shift mod BPB =? 0
    then assign_loop (fun b i => rdb b (i - sb)) (rev (seq sb (length b - sb))) b
    else let* b := assign_loop (fun b i =>
                     let* x := rdb b (i - sb) in
                     let* y := rdb b (i - sb - 1) in
                     Ok (N.lor (shl64 x bits) (shr64 y (64 - bits))))
                   (rev (seq (sb + 1) (length b - 1 - sb))) b in
         let* x := rdb b 0 in
         wrb b sb (shl64 x bits) in
  assign_loop (fun _ _ => Ok 0%N) (seq 0 sb) b.

(* ================= bitset<Size> ================= *)
Definition zero_blocks (size : nat) : list N := repeat 0%N (num_blocks size).
(* 25-31 max() *)
Definition max_blocks (size : nat) : list N := repeat u64_max (num_blocks size).

(* one constructor per member function; r, r' name objects *)
Inductive sop : Type :=
| SSet (r i : nat) (v : bool)      (* set(i, v) *)
| SSetStr (r : nat) (s : list bool)(* set(string), s as written *)
| SReset (r : nat)
| SMax (r : nat)                   (* r = bitset::max() *)
| SAnd (r r' : nat) | SOr (r r' : nat) | SXor (r r' : nat)
| SNot (r r' : nat)                (* r = ~r' *)
| SShl (r s : nat) | SShr (r s : nat)
| STest (r i : nat) | SCount (r : nat) | SAny (r : nat) | SStr (r : nat) | SEach (r : nat)
| SEq (r r' : nat) | SLt (r r' : nat).
Inductive bout : Type :=
| BNone | BBool (b : bool) | BNum (n : N) | BBits (l : list bool) | BIdx (l : list nat)
| BOpt (o : option nat).

(* 37-41 set(string_view): character size()-1-i gives bit i *)
Fixpoint set_all (b : list N) (i : nat) (l : list bool) : res (list N) :=
  match l with
  | [] => Ok b
  | v :: l => let* b := set_bit b i v in set_all b (S i) l
  end.

Section Bitset.
Variable size : nat.
Definition robj {A} (st : list A) (r : nat) : res A :=
  match nth_error st r with Some x => Ok x | None => UB end.
Definition with_obj {A} (st : list A) (r : nat) (g : A -> res A) : res (list A * bout) :=
  let* x := robj st r in
  let* x := g x in Ok (upd r x st, BNone).
Definition observe {A B} (st : list A) (r : nat) (g : A -> res B) (k : B -> bout) : res (list A * bout) :=
  let* x := robj st r in
  let* y := g x in Ok (st, k y).

Definition sstep (st : list (list N)) (o : sop) : res (list (list N) * bout) :=
  match o with
  | SSet r i v => with_obj st r (fun b => set_bit b i v)
  | SSetStr r s => with_obj st r (fun b => set_all b 0 (firstn size (rev s)))
  | SReset r => with_obj st r (fun _ => Ok (zero_blocks size))  (* 55 *)
  | SMax r => with_obj st r (fun _ => Ok (max_blocks size))
  | SAnd r r' => let* o := robj st r' in with_obj st r (fun b => zip_op N.land b o)
  | SOr r r' => let* o := robj st r' in with_obj st r (fun b => zip_op N.lor b o)
  | SXor r r' => let* o := robj st r' in with_obj st r (fun b => zip_op N.lxor b o)
  | SNot r r' => let* o := robj st r' in with_obj st r (fun _ => Ok (flip o))
  | SShl r s => with_obj st r (fun b => if size <=? s then Ok (zero_blocks size) else shl b s)
  | SShr r s => with_obj st r (fun b => if size <=? s then Ok (zero_blocks size) else shr size b s)
  | STest r i => observe st r (fun b => test size b i) BBool
  | SCount r => observe st r (count size) BNum
  | SAny r => observe st r (any size) BBool
  | SStr r => observe st r (to_string size) BBits
  | SEach r => observe st r (for_each_set_bit size) BIdx
  | SEq r r' => let* o := robj st r' in observe st r (fun b => equal_ size b o) BBool
  | SLt r r' => let* o := robj st r' in observe st r (fun b => less size b o) BBool
  end.
Fixpoint srun (st : list (list N)) (ops : list sop) : res (list (list N) * list bout) :=
  match ops with
  | [] => Ok (st, [])
  | o :: ops => let* ' (st, x) := sstep st o in
                let* ' (st, xs) := srun st ops in Ok (st, x :: xs)
  end.
End Bitset.

(* ================= basic_bitvec ================= *)
Record bitvec := BV { v_size : nat; v_blocks : list N }.

(* 66-77 resize; vector::resize value-initialises new blocks and drops the ones behind the end *)
Definition vec_resize (b : list N) (n : nat) : list N := firstn n b ++ repeat 0%N (n - length b).
Definition bv_resize (v : bitvec) (n : nat) : res bitvec :=
  if n =? v_size v then Ok v else
  let* b := if negb (v_size v =? 0) && negb (v_size v mod BPB =? 0)
            then let* x := sanitized_last_block (v_size v) (v_blocks v) in
                 let* l := last_idx (v_blocks v) in wrb (v_blocks v) l x
            else Ok (v_blocks v) in
  Ok (BV n (vec_resize b (num_blocks n))).

(* 123 reset: blocks_ = {}; size_ is kept *)
Definition bv_reset (v : bitvec) : bitvec := BV (v_size v) [].

(* 169-217 next_set_bit *)
Fixpoint first_bit (x : N) (bit n : nat) (left : nat) : option nat :=
  match left with
  | O => None
  | S k => if bit =? n then None
           else if negb (N.land x (bit_mask bit) =? 0)%N then Some bit
           else first_bit x (S bit) n k
  end.
Definition next_in_block (i : nat) (x : N) : option nat :=
  if (x =? 0)%N then None
  else match first_bit x 0 BPB BPB with Some bit => Some (i * BPB + bit) | None => None end.
Fixpoint next_in_blocks (b : list N) (idxs : list nat) : res (option nat) :=
  match idxs with
  | [] => Ok None
  | i :: idxs => let* x := rdb b i in
                 match next_in_block i x with
                 | Some k => Ok (Some k)
                 | None => next_in_blocks b idxs
                 end
  end.
Definition next_set_bit (v : bitvec) (i : nat) : res (option nat) :=
  let b := v_blocks v in
  if v_size v <=? i then Ok None else
  let fb := i / BPB in
  let* x := rdb b fb in
  match (if (x =? 0)%N then None else first_bit x (i mod BPB) (min (v_size v) BPB) BPB) with
  | Some bit => Ok (Some (fb * BPB + bit))
  | None =>
      if fb + 1 =? length b then Ok None else
      let* r := next_in_blocks b (seq (fb + 1) (length b - 1 - (fb + 1))) in
      match r with
      | Some k => Ok (Some k)
      | None => let* y := sanitized_last_block (v_size v) b in
                Ok (next_in_block (length b - 1) y)
      end
  end.

Inductive vop : Type :=
| VResize (r n : nat)
| VSet (r i : nat) (v : bool)
| VSetStr (r : nat) (s : list bool)
| VZeroOut (r : nat) | VOneOut (r : nat)
| VMax (r n : nat)                 (* r = max(n) *)
| VAdopt (r : nat) (b : list N) (n : nat) (* r = basic_bitvec{std::move(b), n} *)
| VCopy (r r' : nat)
| VAnd (r r' : nat) | VOr (r r' : nat) | VXor (r r' : nat)
| VNot (r r' : nat)
| VShl (r s : nat) | VShr (r s : nat)
| VSize (r : nat) | VTest (r i : nat) | VCount (r : nat) | VAny (r : nat) | VStr (r : nat) | VEach (r : nat)
| VNext (r i : nat)
| VEq (r r' : nat) | VLt (r r' : nat).

Definition on_blocks (v : bitvec) (r : res (list N)) : res bitvec :=
  let* b := r in Ok (BV (v_size v) b).
(* 79-87 *)
Definition bv_set_str (v : bitvec) (s : list bool) : res bitvec :=
  let* v := bv_resize v (length s) in
  on_blocks v (set_all (v_blocks v) 0 (firstn (v_size v) (rev s))).
(* 384, 427 *)
Definition bv_shift (v : bitvec) (s : nat) (g : res (list N)) : res bitvec :=
  if v_size v <=? s then Ok (bv_reset v) else on_blocks v g.

Definition vstep (st : list bitvec) (o : vop) : res (list bitvec * bout) :=
  match o with
  | VResize r n => with_obj st r (fun v => bv_resize v n)
  | VSet r i x => with_obj st r (fun v => on_blocks v (set_bit (v_blocks v) i x))
  | VSetStr r s => with_obj st r (fun v => bv_set_str v s)
  | VZeroOut r => with_obj st r (fun v => Ok (BV (v_size v) (map (fun _ => 0%N) (v_blocks v))))  (* 55-59 *)
  | VOneOut r => with_obj st r (fun v => Ok (BV (v_size v) (map (fun _ => u64_max) (v_blocks v)))) (* 60-64 *)
  | VMax r n => with_obj st r (fun _ => let* v := bv_resize (BV 0 []) n in
                                        Ok (BV (v_size v) (map (fun _ => u64_max) (v_blocks v)))) (* 39-46 *)
  (* 32-38: the blocks are taken over as they are; the form without a size has n = 64 * length b *)
  | VAdopt r b n => with_obj st r (fun _ => Ok (BV n b))
  | VCopy r r' => let* o := robj st r' in with_obj st r (fun _ => Ok o)
  | VAnd r r' => let* o := robj st r' in with_obj st r (fun v => on_blocks v (zip_op N.land (v_blocks v) (v_blocks o)))
  | VOr r r' => let* o := robj st r' in with_obj st r (fun v => on_blocks v (zip_op N.lor (v_blocks v) (v_blocks o)))
  | VXor r r' => let* o := robj st r' in with_obj st r (fun v => on_blocks v (zip_op N.lxor (v_blocks v) (v_blocks o)))
  | VNot r r' => let* o := robj st r' in with_obj st r (fun _ => Ok (BV (v_size o) (flip (v_blocks o))))
  | VShl r s => with_obj st r (fun v => bv_shift v s (shl (v_blocks v) s))
  | VShr r s => with_obj st r (fun v => bv_shift v s (shr (v_size v) (v_blocks v) s))
  | VSize r => observe st r (fun v => Ok (N.of_nat (v_size v))) BNum
  | VTest r i => observe st r (fun v => test (v_size v) (v_blocks v) i) BBool
  | VCount r => observe st r (fun v => if v_size v =? 0 then Ok 0%N else count (v_size v) (v_blocks v)) BNum
  | VAny r => observe st r (fun v => if v_size v =? 0 then Ok false else any (v_size v) (v_blocks v)) BBool
  | VStr r => observe st r (fun v => to_string (v_size v) (v_blocks v)) BBits
  | VEach r => observe st r (fun v => if v_size v =? 0 then Ok [] else for_each_set_bit (v_size v) (v_blocks v)) BIdx
  | VNext r i => observe st r (fun v => next_set_bit v i) BOpt
  | VEq r r' => let* o := robj st r' in
                observe st r (fun v => if negb (v_size v =? v_size o) then Ok false
                                       else if v_size v =? 0 then Ok true
                                       else equal_ (v_size v) (v_blocks v) (v_blocks o)) BBool
  | VLt r r' => let* o := robj st r' in
                observe st r (fun v => if (v_size v =? 0) && (v_size o =? 0) then Ok false
                                       else less (v_size v) (v_blocks v) (v_blocks o)) BBool
  end.
Fixpoint vrun (st : list bitvec) (ops : list vop) : res (list bitvec * list bout) :=
  match ops with
  | [] => Ok (st, [])
  | o :: ops => let* ' (st, x) := vstep st o in
                let* ' (st, xs) := vrun st ops in Ok (st, x :: xs)
  end.
