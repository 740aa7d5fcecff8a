(* Model of include/cista/containers/vector.h and string.h/cstring.h when memory runs out or copying an element throws. VecModel has the same functions without failures,
   with the wrap-around of the size type and the ownership of the block, which are left out here.
   Every event that can fail (malloc, copy constructor, copy assignment) takes the next tick; two oracles say which ticks fail. Moving, swapping and
   destroying elements does not throw (reserve requires that: 362-373 swallows the exception and goes on). *)
From Verif Require Import Base.

Section Exc.
Variable A : Type.
Variable badalloc badcopy : nat -> bool.

(* memory without object, an object, an object whose value has been moved away *)
Inductive cell := Raw | Live (v : A) | Moved.

(* cells: the allocated memory; made, gone: objects constructed and destroyed so far *)
Record st := ST { cells : list cell; used : nat; tick : nat; made : nat; gone : nat }.
Definition fresh (t m g : nat) : st := ST [] 0 t m g.

(* the operation returns, throws, or is undefined *)
Inductive how := Done | Threw | Bad.
Definition andthen (r : st * how) (f : st -> st * how) : st * how :=
  match r with
  | (s, Done) => f s
  | _ => r
  end.
Notation "r ;; s => k" := (andthen r (fun s => k)) (at level 100, s name, right associativity).

Definition is_raw (c : cell) : bool := match c with Raw => true | _ => false end.

(* 345-382 reserve: all elements move to the new block, the old objects are destroyed. std::bad_alloc comes before anything changes. *)
Definition reserve (n : nat) (s : st) : st * how :=
  if n <=? length (cells s) then (s, Done)
  else if badalloc (tick s) then (ST (cells s) (used s) (tick s + 1) (made s) (gone s), Threw)
  else let body := firstn (used s) (cells s) in
       if existsb is_raw body || (length (cells s) <? used s) then (s, Bad)
       else (ST (body ++ repeat Raw (2 ^ Nat.log2_up n - used s)) (used s) (tick s + 1)
                (made s + used s) (gone s + used s), Done).

(* new (el_ + i) T(v) *)
Definition build (i : nat) (v : A) (s : st) : st * how :=
  match nth_error (cells s) i with
  | None => (s, Bad)
  | Some _ => if badcopy (tick s) then (ST (cells s) (used s) (tick s + 1) (made s) (gone s), Threw)
              else (ST (upd i (Live v) (cells s)) (used s) (tick s + 1) (made s + 1) (gone s), Done)
  end.
(* el_[i] = v, by copy *)
Definition put (i : nat) (v : A) (s : st) : st * how :=
  match nth_error (cells s) i with
  | None | Some Raw => (s, Bad)
  | Some _ => if badcopy (tick s) then (ST (cells s) (used s) (tick s + 1) (made s) (gone s), Threw)
              else (ST (upd i (Live v) (cells s)) (used s) (tick s + 1) (made s) (gone s), Done)
  end.
Definition set_used (n : nat) (s : st) : st := ST (cells s) n (tick s) (made s) (gone s).

(* constructs vs from position i on, without counting them in used_size_ (the loops of resize and set) *)
Fixpoint fill (i : nat) (vs : list A) (s : st) : st * how :=
  match vs with
  | [] => (s, Done)
  | v :: vs => build i v s ;; s => fill (S i) vs s
  end.
(* constructs vs at the end, counting each *)
Fixpoint append (vs : list A) (s : st) : st * how :=
  match vs with
  | [] => (s, Done)
  | v :: vs => build (used s) v s ;; s => append vs (set_used (used s + 1) s)
  end.
(* the same, growing before each *)
Fixpoint append_grow (vs : list A) (s : st) : st * how :=
  match vs with
  | [] => (s, Done)
  | v :: vs => reserve (used s + 1) s ;; s => build (used s) v s ;; s => append_grow vs (set_used (used s + 1) s)
  end.

(* std::rotate(begin() + a, begin() + m, end()) *)
Definition rotate (a m : nat) (s : st) : st :=
  let body := firstn (used s) (cells s) in
  ST (firstn a body ++ skipn m body ++ skipn a (firstn m body) ++ skipn (used s) (cells s)) (used s) (tick s) (made s) (gone s).

(* 294-313 *)
Definition push_back (v : A) (s : st) : st * how :=
  reserve (used s + 1) s ;; s => append [v] s.
(* 315-329, T init copied for every element *)
Definition resize (n : nat) (v : A) (s : st) : st * how :=
  reserve n s ;; s => fill (used s) (repeat v (n - used s)) s ;; s => (set_used n s, Done).
(* 213-223 insert(it, el) *)
Definition insert (i : nat) (v : A) (s : st) : st * how :=
  let m := used s in
  reserve (used s + 1) s ;; s => append [v] s ;; s => (rotate i m s, Done).
(* 225-237 insert(it, count, value) *)
Definition insert_n (i n : nat) (v : A) (s : st) : st * how :=
  let m := used s in
  reserve (used s + n) s ;; s => append (repeat v n) s ;; s => (rotate i m s, Done).
(* 239-251 insert of input iterators *)
Definition insert_input (i : nat) (vs : list A) (s : st) : st * how :=
  let m := used s in
  append_grow vs s ;; s => (rotate i m s, Done).
(* 171-187 set(begin, end): constructs over what is there *)
Definition set_range (vs : list A) (s : st) : st * how :=
  reserve (length vs) s ;; s => fill 0 vs s ;; s => (set_used (length vs) s, Done).

(* 264-274: moves the k elements from position i on by n to the right, the last one first *)
Fixpoint shift (i n k : nat) (s : st) : st * how :=
  match k with
  | 0 => (s, Done)
  | S k => match nth_error (cells s) (i + k), nth_error (cells s) (i + k + n) with
           | Some c, Some _ =>
             if is_raw c then (s, Bad)
             else shift i n k (ST (if n =? 0 then upd (i + k) Moved (cells s) else upd (i + k + n) c (upd (i + k) Moved (cells s)))
                                  (used s) (tick s)
                                  (made s + if used s <=? i + k + n then 1 else 0) (gone s))
           | _, _ => (s, Bad)
           end
  end.
(* 276-282: copies vs into the gap *)
Fixpoint gap (i : nat) (vs : list A) (s : st) : st * how :=
  match vs with
  | [] => (s, Done)
  | v :: vs => (if used s <=? i then build i v s else put i v s) ;; s => gap (S i) vs s
  end.
(* 253-288 insert of forward iterators *)
Definition insert_range (i : nat) (vs : list A) (s : st) : st * how :=
  if used s =? 0 then set_range vs s
  else reserve (used s + length vs) s ;; s =>
       shift i (length vs) (used s - i) s ;; s =>
       gap i vs s ;; s => (set_used (used s + length vs) s, Done).

(* 333-336 *)
Definition pop_back (s : st) : st * how :=
  match nth_error (cells s) (used s - 1) with
  | Some (Live _) | Some Moved =>
    if used s =? 0 then (s, Bad)
    else (ST (upd (used s - 1) Raw (cells s)) (used s - 1) (tick s) (made s) (gone s + 1), Done)
  | _ => (s, Bad)
  end.
(* 338-343 *)
Definition clear (s : st) : st * how :=
  if existsb is_raw (firstn (used s) (cells s)) || (length (cells s) <? used s) then (s, Bad)
  else (ST (repeat Raw (used s) ++ skipn (used s) (cells s)) 0 (tick s) (made s) (gone s + used s), Done).
(* 384-394 erase(pos): swaps the element to the end (see VecModel) and destroys it there *)
Definition erase (i : nat) (s : st) : st * how :=
  let body := firstn (used s) (cells s) in
  if existsb is_raw body || (length (cells s) <? used s) || (used s <=? i) then (s, Bad)
  else (ST (firstn i body ++ skipn (i + 1) body ++ Raw :: skipn (used s) (cells s)) (used s - 1) (tick s) (made s) (gone s + 1), Done).

(* 99-112 the destructor *)
Definition destroy (s : st) : st * how :=
  clear s ;; s => (fresh (tick s) (made s) (gone s), Done).

Inductive op :=
| Push (v : A) | Resize (n : nat) (v : A) | Reserve (n : nat)
| Insert (i : nat) (v : A) | InsertN (i n : nat) (v : A) | InsertInput (i : nat) (vs : list A) | InsertRange (i : nat) (vs : list A)
| Assign (vs : list A)          (* 92-97 copy assignment from a vector of elements that are not trivially copyable *)
| Pop | Clear | Erase (i : nat).

Definition step (o : op) (s : st) : st * how :=
  match o with
  | Push v => push_back v s
  | Resize n v => resize n v s
  | Reserve n => reserve n s
  | Insert i v => insert i v s
  | InsertN i n v => insert_n i n v s
  | InsertInput i vs => insert_input i vs s
  | InsertRange i vs => insert_range i vs s
  | Assign vs => set_range vs s
  | Pop => pop_back s
  | Clear => clear s
  | Erase i => erase i s
  end.

(* a program that catches every exception and goes on *)
Fixpoint run (ops : list op) (s : st) : st * list how :=
  match ops with
  | [] => (s, [])
  | o :: ops => let '(s, h) := step o s in let '(s, hs) := run ops s in (s, h :: hs)
  end.

(* the values of the elements, None = moved away *)
Definition value (c : cell) : option A := match c with Live v => Some v | _ => None end.
Definition contents (s : st) : list (option A) := map value (firstn (used s) (cells s)).

(* ---------------- strings ---------------- *)
(* string.h 79-84, 97-118 (cstring.h 63-68, 84-98 alike): up to 15 characters inline, else in a block of its own *)
Record str := STR { text : list A; block : bool; blocks : nat (* blocks in existence *) }.
Definition str_reset (x : str) : str := STR [] false (blocks x - if block x then 1 else 0).
Definition set_owning (t : nat) (cs : list A) (x : str) : str * how :=
  let x := str_reset x in
  if length cs <=? 15 then (STR cs false (blocks x), Done)
  else if badalloc t then (x, Threw)
  else (STR cs true (blocks x + 1), Done).
(* a history of assignments, the i-th with tick t + i *)
Fixpoint set_all (t : nat) (l : list (list A)) (x : str) : str * list how :=
  match l with
  | [] => (x, [])
  | cs :: l => let '(x, h) := set_owning t cs x in let '(x, hs) := set_all (t + 1) l x in (x, h :: hs)
  end.
End Exc.
Arguments Raw {A}. Arguments Live {A}. Arguments Moved {A}.
Arguments ST {A}. Arguments cells {A}. Arguments used {A}. Arguments tick {A}. Arguments made {A}. Arguments gone {A}. Arguments fresh {A}.
Arguments Push {A}. Arguments Resize {A}. Arguments Reserve {A}. Arguments Insert {A}. Arguments InsertN {A}. Arguments InsertInput {A}.
Arguments InsertRange {A}. Arguments Assign {A}. Arguments Pop {A}. Arguments Clear {A}. Arguments Erase {A}.
Arguments STR {A}. Arguments text {A}. Arguments block {A}. Arguments blocks {A}.
