(* Elements of a basic_vector as arguments of its own functions, include/cista/containers/vector.h. A reference or an iterator into the
   vector points into the block it had at the call; once reserve (345-382) has moved to another block, the old one is destroyed and freed,
   so a later read through the reference is UB. A block is told apart from its successor by its length: reserve only ever leaves a block
   for one of another length when the vector holds elements and the sizes do not wrap (VownProofs.reserve_fresh). *)
From Verif Require Import Base ArithModel VecModel.

Section Vown.
Variable A : Type.
Variable w : N.
Variable triv : bool.
Notation vec := (vec A).
Notation slot := (slot A).

(* allocated_size_, vector.h:448 *)
Definition capacity (v : vec) : nat := length (v_slots v).

(* reads v[j] through a reference taken when the vector was v; now it is v' *)
Definition old_ref (v v' : vec) (j : nat) : res A :=
  if capacity v' =? capacity v then read A (v_slots v') j else UB.

(* 214-224 insert(it, v[j]) *)
Definition insert_own (v : vec) (i j : nat) : res (vec * nat) :=
  let old := v_used v in
  let* v' := reserve A w triv v (wrapw w (N.of_nat old + 1)) in
  let* x := old_ref v v' j in
  let* ' (l, k) := construct A triv (v_slots v') old x in
  let* ' (l, p) := rotate A l i old (old + 1) in
  Ok (V l (old + 1) (v_self v') (v_leak v' + k), p).

(* 231-234 the loop of insert(it, count, v[j]): the argument is read once per copy; ok: the reference is still valid *)
Fixpoint construct_own (l : list slot) (ok : bool) (i n j : nat) : res (list slot * nat) :=
  match n with
  | O => Ok (l, 0)
  | S n => let* x := if ok then read A l j else UB in
           let* ' (l, k) := construct A triv l i x in
           let* ' (l, k') := construct_own l ok (S i) n j in Ok (l, k + k')
  end.
(* 226-238 insert(it, count, v[j]) *)
Definition insert_n_own (v : vec) (i n j : nat) : res (vec * nat) :=
  let old := v_used v in
  let* v' := reserve A w triv v (wrapw w (N.of_nat old + N.of_nat n)) in
  let* ' (l, k) := construct_own (v_slots v') (capacity v' =? capacity v) old n j in
  let* ' (l, p) := rotate A l i old (old + n) in
  Ok (V l (old + n) (v_self v') (v_leak v' + k), p).

(* 294-313 push_back(std::move(v[j])), emplace_back(std::move(v[j])): v[j] is left moved from *)
Definition push_moved (v : vec) (j : nat) : res vec :=
  let* v' := reserve A w triv v (wrapw w (N.of_nat (v_used v) + 1)) in
  let* ' (x, l) := if capacity v' =? capacity v then take A (v_slots v') j else UB in
  let* ' (l, k) := construct A triv l (v_used v') x in
  Ok (V l (v_used v' + 1) (v_self v') (v_leak v' + k)).

(* v[j] = x; 141-148 operator[] *)
Definition write_at (v : vec) (j : nat) (x : A) : res vec :=
  let* l := assign A (v_slots v) j x in Ok (V l (v_used v) (v_self v) (v_leak v)).

(* 180-184 the loop of set(v.begin() + a, v.begin() + b): source and target run through the same block. An object that is constructed
   from itself at its own place is read after its lifetime has ended; for trivially copyable types the bytes are still there. *)
Fixpoint copy_down (l : list slot) (src dst n : nat) : res (list slot * nat) :=
  match n with
  | O => Ok (l, 0)
  | S n => let* x := if (src =? dst) && negb triv then UB else read A l src in
           let* ' (l, k) := construct A triv l dst x in
           let* ' (l, k') := copy_down l (S src) (S dst) n in Ok (l, k + k')
  end.
(* 171-187 set(begin() + a, begin() + b); the range fits into the vector, so reserve keeps the block *)
Definition set_own (v : vec) (a b : nat) : res vec :=
  let* _ := verify ((a <=? b) && (N.of_nat (b - a) <=? 2 ^ w - 1)%N) in
  let* v' := reserve A w triv v (N.of_nat (b - a)) in
  let* ' (l, k) := (if capacity v' =? capacity v then copy_down (v_slots v') a 0 (b - a) else UB) in
  Ok (V l (b - a) (v_self v') (v_leak v' + k)).

(* calls that add elements of the vector to it again *)
Inductive call := CPush (j : nat) | CInsert (i j : nat) | CInsertN (i n j : nat).
Definition do_call (v : vec) (c : call) : res vec :=
  match c with
  | CPush j => push_back_own A w triv v j
  | CInsert i j => let* ' (v, _) := insert_own v i j in Ok v
  | CInsertN i n j => let* ' (v, _) := insert_n_own v i n j in Ok v
  end.
Fixpoint do_calls (v : vec) (cs : list call) : res vec :=
  match cs with [] => Ok v | c :: cs => let* v := do_call v c in do_calls v cs end.
End Vown.
