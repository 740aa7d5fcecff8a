(* Model of include/cista/containers/vector.h basic_vector.
   The storage is a list of slots, one per allocated element; its length is allocated_size_.
   A slot holds no object, a live object, or a live object whose value has been moved away.
   Reading or destroying a slot without object, reading a moved-from value and touching a slot that
   does not exist are UB. Constructing over a live object is not UB: the old object is lost, which
   v_leak counts. Moved-from values count as unreadable even for trivially copyable types. malloc is assumed to succeed (vector.h:354-356 throws otherwise). *)
From Verif Require Import Base ArithModel.

Section Vec.
Variable A : Type.
Variable w : N.            (* width of size_type in bits *)
Variable triv : bool.      (* std::is_trivially_copyable_v<T>: nothing is lost by overwriting *)
Variable dflt : A.         (* T{} *)
Variables (eqA ltA : A -> A -> bool).   (* the element type's == and < *)

Inductive slot := Raw | Live (x : A) | Gone.
Record vec := V { v_slots : list slot; v_used : nat; v_self : bool; v_leak : nat }.
(* 446-452 default member initialisers, 439-444 reset() *)
Definition vnew : vec := V [] 0 false 0.
Definition vreset (v : vec) : vec := V [] 0 false (v_leak v).

(* values of size_type *)
Definition wrapw (x : N) : N := (x mod 2 ^ w)%N.
Definition lost (s : slot) : nat := match s with Raw => 0 | _ => if triv then 0 else 1 end.
Definition lost_all (l : list slot) : nat := fold_right (fun s n => lost s + n) 0 l.

(* new (el_ + i) T(x) *)
Definition construct (l : list slot) (i : nat) (x : A) : res (list slot * nat) :=
  match nth_error l i with
  | Some s => Ok (upd i (Live x) l, lost s)
  | None => UB
  end.
(* el_[i].~T() *)
Definition destroy (l : list slot) (i : nat) : res (list slot) :=
  match nth_error l i with
  | Some Raw | None => UB
  | Some _ => Ok (upd i Raw l)
  end.
(* el_[i] = x *)
Definition assign (l : list slot) (i : nat) (x : A) : res (list slot) :=
  match nth_error l i with
  | Some Raw | None => UB
  | Some _ => Ok (upd i (Live x) l)
  end.
Definition read (l : list slot) (i : nat) : res A :=
  match nth_error l i with Some (Live x) => Ok x | _ => UB end.
(* std::move(el_[i]) *)
Definition take (l : list slot) (i : nat) : res (A * list slot) :=
  match nth_error l i with Some (Live x) => Ok (x, upd i Gone l) | _ => UB end.

(* loops *)
Fixpoint destroy_n (l : list slot) (i n : nat) : res (list slot) :=
  match n with O => Ok l | S n => let* l := destroy l i in destroy_n l (S i) n end.
Fixpoint read_n (l : list slot) (i n : nat) : res (list A) :=
  match n with O => Ok [] | S n => let* x := read l i in let* xs := read_n l (S i) n in Ok (x :: xs) end.
Fixpoint construct_l (l : list slot) (i : nat) (xs : list A) : res (list slot * nat) :=
  match xs with
  | [] => Ok (l, 0)
  | x :: xs => let* ' (l, k) := construct l i x in
               let* ' (l, k') := construct_l l (S i) xs in Ok (l, k + k')
  end.
Fixpoint assign_l (l : list slot) (i : nat) (xs : list A) : res (list slot) :=
  match xs with
  | [] => Ok l
  | x :: xs => let* l := assign l i x in assign_l l (S i) xs
  end.

(* 345-382 reserve; the argument is a value of size_type *)
Fixpoint move_n (old mem : list slot) (i n : nat) : res (list slot * list slot) :=
  match n with
  | O => Ok (old, mem)
  | S n => let* ' (x, old) := take old i in
           let* ' (mem, _) := construct mem i x in
           move_n old mem (S i) n
  end.
Definition reserve (v : vec) (n : N) : res vec :=
  let alloc := N.of_nat (length (v_slots v)) in
  if (N.max alloc n <=? alloc)%N then Ok v else
  let next := next_power_of_two w (N.max alloc n) in
  let* ' (old, mem) := move_n (v_slots v) (repeat Raw (N.to_nat next)) 0 (v_used v) in
  let* old := destroy_n old 0 (v_used v) in
  Ok (V mem (v_used v) true (v_leak v + if v_self v then lost_all old else 0)).

(* 101-112 deallocate *)
Definition deallocate (v : vec) : res vec :=
  if negb (v_self v) || (length (v_slots v) =? 0) then Ok v else
  let* l := destroy_n (v_slots v) 0 (v_used v) in
  Ok (V [] 0 false (v_leak v + lost_all l)).

(* 294-313 push_back, emplace_back of a value that does not live in this vector *)
Definition push_back (v : vec) (x : A) : res vec :=
  let* v := reserve v (wrapw (N.of_nat (v_used v) + 1)) in
  let* ' (l, k) := construct (v_slots v) (v_used v) x in
  Ok (V l (v_used v + 1) (v_self v) (v_leak v + k)).
(* push_back(v[i]): the reference is read after reserve *)
Definition push_back_own (v : vec) (i : nat) : res vec :=
  let* v' := reserve v (wrapw (N.of_nat (v_used v) + 1)) in
  (* a new allocation: the reference points into storage that was destroyed *)
  let* x := if length (v_slots v') =? length (v_slots v) then read (v_slots v') i else UB in
  let* ' (l, k) := construct (v_slots v') (v_used v') x in
  Ok (V l (v_used v' + 1) (v_self v') (v_leak v' + k)).

(* std::rotate(begin() + a, begin() + m, begin() + e); result: the range and the returned position *)
Definition rotate (l : list slot) (a m e : nat) : res (list slot * nat) :=
  let* xs := read_n l a (m - a) in
  let* ys := read_n l m (e - m) in
  let* l := assign_l l a (ys ++ xs) in
  Ok (l, a + (e - m)).

(* 214-224 insert(it, el); result: vector and returned position *)
Definition insert (v : vec) (i : nat) (x : A) : res (vec * nat) :=
  let old := v_used v in
  let* v := reserve v (wrapw (N.of_nat old + 1)) in
  let* ' (l, k) := construct (v_slots v) old x in
  let* ' (l, p) := rotate l i old (old + 1) in
  Ok (V l (old + 1) (v_self v) (v_leak v + k), p).
(* 226-238 insert(it, count, value) *)
Definition insert_n (v : vec) (i n : nat) (x : A) : res (vec * nat) :=
  let old := v_used v in
  let* v := reserve v (wrapw (N.of_nat old + N.of_nat n)) in
  let* ' (l, k) := construct_l (v_slots v) old (repeat x n) in
  let* ' (l, p) := rotate l i old (old + n) in
  Ok (V l (old + n) (v_self v) (v_leak v + k), p).
(* 240-253 insert(pos, first, last) of input iterators *)
Fixpoint push_all (v : vec) (xs : list A) : res vec :=
  match xs with [] => Ok v | x :: xs => let* v := push_back v x in push_all v xs end.
Definition insert_input (v : vec) (i : nat) (xs : list A) : res (vec * nat) :=
  let old := v_used v in
  let* v := push_all v xs in
  let* ' (l, p) := rotate (v_slots v) i old (v_used v) in
  Ok (V l (v_used v) (v_self v) (v_leak v), p).

(* 171-187 set(begin, end), range not inside this vector *)
Definition set_range (v : vec) (xs : list A) : res vec :=
  let* _ := verify (N.of_nat (length xs) <=? 2 ^ w - 1)%N in
  let* v := reserve v (N.of_nat (length xs)) in
  let* ' (l, k) := construct_l (v_slots v) 0 xs in
  Ok (V l (length xs) (v_self v) (v_leak v + k)).
(* 189-199 set(vector): memcpy of trivially copyable elements writes the same values *)
Definition set_vec (v o : vec) : res vec :=
  let* xs := read_n (v_slots o) 0 (v_used o) in
  if triv && (v_used o =? 0) then Ok (V (v_slots v) 0 (v_self v) (v_leak v)) else set_range v xs.

(* 255-286 insert(pos, first, last) of forward iterators. With an empty range (n = 0) the loop of 267-274 assigns every element
   to itself by move, after which only trivially copyable types are sure to have kept their value. *)
Fixpoint shift_right (l : list slot) (used n : nat) (srcs : list nat) : res (list slot * nat) :=
  match srcs with
  | [] => Ok (l, 0)
  | s :: srcs =>
      let* ' (x, l) := take l s in
      let* ' (l, k) := (if used <=? s + n then construct l (s + n) x
                        else if (n =? 0) && negb triv then Ok (l, 0)
                        else let* l := assign l (s + n) x in Ok (l, 0)) in
      let* ' (l, k') := shift_right l used n srcs in Ok (l, k + k')
  end.
Fixpoint fill_gap (l : list slot) (used p : nat) (xs : list A) : res (list slot * nat) :=
  match xs with
  | [] => Ok (l, 0)
  | x :: xs =>
      let* ' (l, k) := (if used <=? p then construct l p x
                        else let* l := assign l p x in Ok (l, 0)) in
      let* ' (l, k') := fill_gap l used (S p) xs in Ok (l, k + k')
  end.
Definition insert_range (v : vec) (i : nat) (xs : list A) : res (vec * nat) :=
  if v_used v =? 0 then let* v := set_range v xs in Ok (v, 0) else
  let n := length xs in
  let* v := reserve v (wrapw (N.of_nat (v_used v) + N.of_nat n)) in
  let used := v_used v in
  let* ' (l, k) := shift_right (v_slots v) used n (rev (seq i (used - i))) in
  let* ' (l, k') := fill_gap l used i xs in
  Ok (V l (used + n) (v_self v) (v_leak v + k + k'), i).

(* 315-329 resize *)
Definition resize (v : vec) (n : nat) (x : A) : res vec :=
  let* v := reserve v (N.of_nat n) in
  let* ' (l, k) := construct_l (v_slots v) (v_used v) (repeat x (n - v_used v)) in
  Ok (V l n (v_self v) (v_leak v + k)).
(* 333-336 pop_back *)
Definition pop_back (v : vec) : res vec :=
  if v_used v =? 0 then UB else
  let* l := destroy (v_slots v) (v_used v - 1) in
  Ok (V l (v_used v - 1) (v_self v) (v_leak v)).
(* 338-343 clear *)
Definition clear (v : vec) : res vec :=
  let* l := destroy_n (v_slots v) 0 (v_used v) in Ok (V l 0 (v_self v) (v_leak v)).

(* 384-394 erase(pos): std::swap along to the end, then destroy *)
Definition swap (l : list slot) (i j : nat) : res (list slot) :=
  let* x := read l i in let* y := read l j in
  let* l := assign l i y in assign l j x.
Fixpoint swap_down (l : list slot) (pos n : nat) : res (list slot) :=
  match n with O => Ok l | S n => let* l := swap l pos (pos + 1) in swap_down l (S pos) n end.
Definition erase (v : vec) (i : nat) : res (vec * nat) :=
  if v_used v =? 0 then UB else
  let last := v_used v - 1 in
  let* l := swap_down (v_slots v) i (last - i) in
  let* l := destroy l (max i last) in
  Ok (V l (v_used v - 1) (v_self v) (v_leak v), i).
(* 396-405 erase(first, last) *)
Fixpoint move_down (l : list slot) (src dst n : nat) : res (list slot) :=
  match n with
  | O => Ok l
  | S n => let* ' (x, l) := take l src in let* l := assign l dst x in move_down l (S src) (S dst) n
  end.
Definition erase_range (v : vec) (i j : nat) : res (vec * nat) :=
  if i =? j then Ok (v, v_used v) else
  let* l := move_down (v_slots v) j i (v_used v - j) in
  let new_end := i + (v_used v - j) in
  let* l := destroy_n l new_end (v_used v - new_end) in
  Ok (V l new_end (v_self v) (v_leak v), new_end).

(* 151-160 at *)
Definition at_ (v : vec) (i : nat) : res A := if v_used v <=? i then Throw else read (v_slots v) i.
Definition contents (v : vec) : res (list A) := read_n (v_slots v) 0 (v_used v).

(* 416-437 comparisons: std::equal and std::lexicographical_compare *)
Fixpoint std_equal (a b : list A) : bool :=
  match a, b with
  | [], [] => true
  | x :: a, y :: b => eqA x y && std_equal a b
  | _, _ => false
  end.
Fixpoint std_lex (a b : list A) : bool :=
  match a, b with
  | _, [] => false
  | [], _ :: _ => true
  | x :: a, y :: b => if ltA x y then true else if ltA y x then false else std_lex a b
  end.
Definition veq (a b : vec) : res bool :=
  let* x := contents a in let* y := contents b in Ok (std_equal x y).
Definition vlt (a b : vec) : res bool :=
  let* x := contents a in let* y := contents b in Ok (std_lex x y).
Definition vgt (a b : vec) : res bool := vlt b a.
Definition vle (a b : vec) : res bool := let* r := vgt a b in Ok (negb r).
Definition vge (a b : vec) : res bool := let* r := vlt a b in Ok (negb r).

(* ---- several vectors ---- *)
Inductive op : Type :=
| Push (r : nat) (x : A) | PushOwn (r i : nat)
| Insert (r i : nat) (x : A) | InsertN (r i n : nat) (x : A)
| InsertInput (r i : nat) (xs : list A) | InsertRange (r i : nat) (xs : list A)
| Set_ (r : nat) (xs : list A) | Resize (r n : nat) | ResizeTo (r n : nat) (x : A)
| Reserve (r : nat) (n : N) | Pop (r : nat) | Clear (r : nat)
| Erase (r i : nat) | EraseRange (r i j : nat)
| Write (r i : nat) (x : A)                 (* v[i] = x *)
| Copy (r r' : nat) | Move (r r' : nat)     (* copy and move assignment *)
| New (r : nat)                             (* destruction, and a new vector in its place *)
| View (r : nat) (xs : list A)              (* destruction, and a deserialized vector in its place *)
| At (r i : nat) | Get (r i : nat) | Front (r : nat) | Back (r : nat) | Size (r : nat) | All (r : nat)
| Eq (r r' : nat) | Lt (r r' : nat) | Gt (r r' : nat) | Le (r r' : nat) | Ge (r r' : nat).
Inductive out : Type := ONone | OVal (x : A) | OThrow | ONum (n : nat) | OBool (b : bool) | OList (l : list A).

Definition obj (st : list vec) (r : nat) : res vec :=
  match nth_error st r with Some v => Ok v | None => UB end.
Definition upto (st : list vec) (r : nat) (k : vec -> res vec) : res (list vec * out) :=
  let* v := obj st r in let* v := k v in Ok (upd r v st, ONone).
Definition upto1 (st : list vec) (r : nat) (k : vec -> res (vec * nat)) : res (list vec * out) :=
  let* v := obj st r in let* ' (v, p) := k v in Ok (upd r v st, ONum p).
Definition ask {B} (st : list vec) (r : nat) (k : vec -> res B) (f : B -> out) : res (list vec * out) :=
  let* v := obj st r in let* b := k v in Ok (st, f b).

Definition step (st : list vec) (o : op) : res (list vec * out) :=
  match o with
  | Push r x => upto st r (fun v => push_back v x)
  | PushOwn r i => upto st r (fun v => push_back_own v i)
  | Insert r i x => upto1 st r (fun v => insert v i x)
  | InsertN r i n x => upto1 st r (fun v => insert_n v i n x)
  | InsertInput r i xs => upto1 st r (fun v => insert_input v i xs)
  | InsertRange r i xs => upto1 st r (fun v => insert_range v i xs)
  | Set_ r xs => upto st r (fun v => set_range v xs)
  | Resize r n => upto st r (fun v => resize v n dflt)
  | ResizeTo r n x => upto st r (fun v => resize v n x)
  | Reserve r n => upto st r (fun v => reserve v n)
  | Pop r => upto st r pop_back
  | Clear r => upto st r clear
  | Erase r i => upto1 st r (fun v => erase v i)
  | EraseRange r i j => upto1 st r (fun v => erase_range v i j)
  | Write r i x => upto st r (fun v => let* l := assign (v_slots v) i x in
                                        Ok (V l (v_used v) (v_self v) (v_leak v)))
  | Copy r r' => let* o := obj st r' in                                     (* 92-97 *)
                 upto st r (fun v => if r =? r' then Ok v else set_vec v o)
  | Move r r' =>                                                             (* 80-90 *)
      let* v := obj st r in
      let* v := deallocate v in
      let st := upd r v st in
      let* o := obj st r' in
      let st := upd r (V (v_slots o) (v_used o) (v_self o) (v_leak v)) st in
      let* o := obj st r' in
      Ok (upd r' (vreset o) st, ONone)
  | New r => upto st r (fun v => let* v := deallocate v in Ok (vreset v))
  | View r xs => upto st r (fun v => let* v := deallocate v in
                                     Ok (V (map Live xs) (length xs) false (v_leak v)))
  | At r i => let* v := obj st r in
              match at_ v i with Ok x => Ok (st, OVal x) | Throw => Ok (st, OThrow) | UB => UB | Fuel => Fuel end
  | Get r i => ask st r (fun v => read (v_slots v) i) OVal
  | Front r => ask st r (fun v => read (v_slots v) 0) OVal
  | Back r => ask st r (fun v => if v_used v =? 0 then UB else read (v_slots v) (v_used v - 1)) OVal
  | Size r => ask st r (fun v => Ok (v_used v)) ONum
  | All r => ask st r contents OList
  | Eq r r' => let* o := obj st r' in ask st r (fun v => veq v o) OBool
  | Lt r r' => let* o := obj st r' in ask st r (fun v => vlt v o) OBool
  | Gt r r' => let* o := obj st r' in ask st r (fun v => vgt v o) OBool
  | Le r r' => let* o := obj st r' in ask st r (fun v => vle v o) OBool
  | Ge r r' => let* o := obj st r' in ask st r (fun v => vge v o) OBool
  end.
Fixpoint run (st : list vec) (ops : list op) : res (list vec * list out) :=
  match ops with
  | [] => Ok (st, [])
  | o :: ops => let* ' (st, x) := step st o in
                let* ' (st, xs) := run st ops in Ok (st, x :: xs)
  end.
End Vec.
Arguments Raw {A}. Arguments Live {A}. Arguments Gone {A}.
Arguments V {A}. Arguments vnew {A}. Arguments v_slots {A}. Arguments v_used {A}. Arguments v_self {A}. Arguments v_leak {A}.
Arguments Push {A}. Arguments PushOwn {A}. Arguments Insert {A}. Arguments InsertN {A}. Arguments InsertInput {A}.
Arguments InsertRange {A}. Arguments Set_ {A}. Arguments Resize {A}. Arguments ResizeTo {A}. Arguments Reserve {A}.
Arguments Pop {A}. Arguments Clear {A}. Arguments Erase {A}. Arguments EraseRange {A}. Arguments Write {A}.
Arguments Copy {A}. Arguments Move {A}. Arguments New {A}. Arguments View {A}. Arguments At {A}. Arguments Get {A}.
Arguments Front {A}. Arguments Back {A}. Arguments Size {A}. Arguments All {A}. Arguments Eq {A}. Arguments Lt {A}.
Arguments Gt {A}. Arguments Le {A}. Arguments Ge {A}.
Arguments ONone {A}. Arguments OVal {A}. Arguments OThrow {A}. Arguments ONum {A}. Arguments OBool {A}. Arguments OList {A}.
