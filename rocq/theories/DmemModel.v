(* Model of the memory of nested vectors (basic_vector<basic_vector<...<T>>>), include/cista/containers/vector.h: the objects lie in blocks of the
   heap, an element that is a vector has el_, used_size_, allocated_size_ and self_allocated_ of its own, and constructors, assignments and
   destructors of the elements run as the code of the outer vector calls them. Loaded vectors (self_allocated_ = false with elements) are those
   of VmemModel. Pointers are block numbers (offset_ptr acts as a pointer, C10). malloc succeeds, T is a scalar. *)
From Verif Require Import Base ArithModel.

(* the type of an object: T, or basic_vector of something *)
Inductive dty := DS | DV (t : dty).
(* an object in memory; the members of a vector are those of 446-449 *)
Inductive obj := Sc (x : N) | Ve (el : option nat) (used cap : nat) (self : bool).
(* a block: each slot holds an object, or is raw memory; a freed block is None. Block 0 holds the variables of the program. *)
Definition heap := list (option (list (option obj))).
Definition place := (nat * nat)%type.
Definition blk (h : heap) (b : nat) : option (list (option obj)) := match nth_error h b with Some x => x | None => None end.

(* the object at a place; raw memory, freed blocks and places behind the end of a block are UB *)
Definition rd (h : heap) (p : place) : res obj :=
  match blk h (fst p) with Some l => match nth_error l (snd p) with Some (Some o) => Ok o | _ => UB end | None => UB end.
Definition wr (h : heap) (p : place) (o : option obj) : res heap :=
  match blk h (fst p) with Some l => if snd p <? length l then Ok (upd (fst p) (Some (upd (snd p) o l)) h) else UB | None => UB end.
(* placement new: the slot need not be raw, an object that was there is forgotten *)
Definition init (h : heap) (p : place) (o : obj) : res heap := wr h p (Some o).
(* members of an existing object change *)
Definition mod_ (h : heap) (p : place) (o : obj) : res heap := let* _ := rd h p in wr h p (Some o).
(* std::free *)
Definition free_ (h : heap) (b : nat) : res heap := match blk h b with Some _ => Ok (upd b None h) | None => UB end.

Definition rdv (h : heap) (p : place) : res (option nat * nat * nat * bool) :=
  let* o := rd h p in match o with Ve el used cap self => Ok (el, used, cap, self) | Sc _ => UB end.
(* el_[i]: the i-th element; from a null pointer UB *)
Definition elem (el : option nat) (i : nat) : res place := match el with Some b => Ok (b, i) | None => UB end.
(* for (i = k; i < k + n; ++i) g(i) *)
Fixpoint loop (n k : nat) (g : nat -> heap -> res heap) (h : heap) : res heap :=
  match n with O => Ok h | S n => let* h := g k h in loop n (S k) g h end.

Definition empty_vec : obj := Ve None 0 0 false.   (* default member initialisers 446-449; also what reset() leaves, 439-444 *)

(* ~T(): nothing for a scalar; 99, 101-112 ~basic_vector() is deallocate() *)
Fixpoint destroy (t : dty) (h : heap) (p : place) : res heap :=
  match t with
  | DS => let* _ := rd h p in wr h p None
  | DV t =>
      let* ' (el, used, cap, self) := rdv h p in
      match el, self with
      | Some b, true => let* h := loop used 0 (fun i h => destroy t h (b, i)) h in let* h := free_ h b in wr h p None
      | _, _ => wr h p None
      end
  end.
(* T(T&&): 66-73; a scalar keeps its value *)
Definition move_construct (t : dty) (h : heap) (src dst : place) : res heap :=
  let* o := rd h src in
  let* h := init h dst o in
  match t with DS => Ok h | DV _ => mod_ h src empty_vec end.

Section Dmem.
Variable w : N.   (* bits of size_type *)

(* 345-382 reserve, of the vector at p with elements of type t *)
Definition reserve (t : dty) (h : heap) (p : place) (n : nat) : res heap :=
  let* ' (el, used, cap, self) := rdv h p in
  if (n <=? cap)%nat then Ok h else
  let next := N.to_nat (next_power_of_two w (N.of_nat n)) in
  let nb := length h in
  let h := h ++ [Some (repeat None next)] in
  let* h := loop used 0 (fun i h => let* s := elem el i in move_construct t h s (nb, i)) h in
  let* h := loop used 0 (fun i h => let* s := elem el i in destroy t h s) h in
  let* h := match el, self with Some b, true => free_ h b | _, _ => Ok h end in
  mod_ h p (Ve (Some nb) used next true).
Definition set_used (h : heap) (p : place) (n : nat) : res heap :=
  let* ' (el, used, cap, self) := rdv h p in mod_ h p (Ve el n cap self).

(* T(T const& ): 75-78; set(arr) 171-200 reserves and constructs copies of the elements in the slots (the memcpy of scalars does the same). What lay in the
   slots before is forgotten. *)
Fixpoint copy_construct (t : dty) (h : heap) (src dst : place) : res heap :=
  match t with
  | DS => let* o := rd h src in init h dst o
  | DV t' =>
      let* h := init h dst empty_vec in
      let* ' (el, used, cap, self) := rdv h src in
      let* h := reserve t' h dst used in
      let* ' (el', used', cap', self') := rdv h dst in
      let* h := loop used 0 (fun i h => let* s := elem el i in let* d := elem el' i in copy_construct t' h s d) h in
      set_used h dst used
  end.
(* 92-97 operator=(basic_vector const& ): nothing happens for the same object, otherwise set; scalars are assigned *)
Definition copy_assign (t : dty) (h : heap) (p src : place) : res heap :=
  match t with
  | DS => let* o := rd h src in mod_ h p o
  | DV t' =>
      if (fst p =? fst src)%nat && (snd p =? snd src)%nat then Ok h else
      let* ' (el, used, cap, self) := rdv h src in
      let* h := reserve t' h p used in
      let* ' (el', used', cap', self') := rdv h p in
      let* h := loop used 0 (fun i h => let* s := elem el i in let* d := elem el' i in copy_construct t' h s d) h in
      set_used h p used
  end.
(* 80-90 operator=(basic_vector&& ): deallocate() 101-112, take over the members, reset the source, which may be the same object *)
Definition move_assign (t : dty) (h : heap) (p src : place) : res heap :=
  match t with
  | DS => let* o := rd h src in mod_ h p o
  | DV t' =>
      let* h := destroy t h p in
      let* h := init h p empty_vec in
      let* o := rd h src in
      let* h := mod_ h p o in
      mod_ h src empty_vec
  end.
(* std::swap of two different elements: the three moves exchange the objects (no move deallocates, since its target was just moved from) *)
Definition swap (h : heap) (p q : place) : res heap :=
  let* x := rd h p in let* y := rd h q in let* h := mod_ h p y in mod_ h q x.

(* 294-304 push_back, with the element constructed from src by copying or moving *)
Definition push_back (t : dty) (h : heap) (p src : place) (mv : bool) : res heap :=
  let* ' (el, used, cap, self) := rdv h p in
  let* h := reserve t h p (used + 1) in
  let* ' (el, used, cap, self) := rdv h p in
  let* d := elem el used in
  let* h := if mv then move_construct t h src d else copy_construct t h src d in
  set_used h p (used + 1).
(* 214-224 insert(it, el): append, then std::rotate moves the last element to its place (modelled by exchanges) *)
Definition insert (t : dty) (h : heap) (p : place) (k : nat) (src : place) (mv : bool) : res heap :=
  let* ' (el, used, cap, self) := rdv h p in
  let* h := push_back t h p src mv in
  let* ' (el', used', cap', self') := rdv h p in
  loop (used - k) 0 (fun i h => let* a := elem el' (used - S i) in let* b := elem el' (used - i) in swap h a b) h.
(* 333-336 pop_back *)
Definition pop_back (t : dty) (h : heap) (p : place) : res heap :=
  let* ' (el, used, cap, self) := rdv h p in
  match used with
  | O => UB
  | S n => let* h := set_used h p n in let* d := elem el n in destroy t h d
  end.
(* 338-343 clear *)
Definition clear (t : dty) (h : heap) (p : place) : res heap :=
  let* ' (el, used, cap, self) := rdv h p in
  let* h := loop used 0 (fun i h => let* d := elem el i in destroy t h d) h in set_used h p 0.
(* 384-394 erase(pos) *)
Definition erase (t : dty) (h : heap) (p : place) (k : nat) : res heap :=
  let* ' (el, used, cap, self) := rdv h p in
  if used <=? k then UB else
  let* h := loop (used - 1 - k) k (fun i h => let* a := elem el i in let* b := elem el (i + 1) in swap h a b) h in
  let* d := elem el (used - 1) in
  let* h := destroy t h d in set_used h p (used - 1).
(* 315-321 resize(size): new elements are T{}; with a smaller size the elements behind it are forgotten *)
Definition resize (t : dty) (h : heap) (p : place) (n : nat) : res heap :=
  let* ' (el, used, cap, self) := rdv h p in
  let* h := reserve t h p n in
  let* ' (el, used, cap, self) := rdv h p in
  let* h := loop (n - used) used (fun i h => let* d := elem el i in init h d (match t with DS => Sc 0 | DV _ => empty_vec end)) h in
  set_used h p n.

(* x[i][j]..., operator[] 142-149; an index behind the end is UB *)
Fixpoint locate (h : heap) (t : dty) (p : place) (path : list nat) : res (dty * place) :=
  match path with
  | [] => Ok (t, p)
  | i :: path =>
      match t with
      | DS => UB
      | DV t => let* ' (el, used, cap, self) := rdv h p in if i <? used then let* q := elem el i in locate h t q path else UB
      end
  end.

(* A program with variables of the given types; a place is a variable and a path of indices. *)
Definition ref := (nat * list nat)%type.
Inductive op :=
| Push (r : ref) (src : ref) (mv : bool)          (* r.push_back(src) or r.push_back(std::move(src)) *)
| Insert (r : ref) (k : nat) (src : ref) (mv : bool)
| Pop (r : ref) | Clear (r : ref) | Erase (r : ref) (k : nat) | Resize (r : ref) (n : nat) | Reserve (r : ref) (n : nat)
| Write (r : ref) (x : N)                         (* r = x, for a scalar *)
| Copy (r src : ref) | Move (r src : ref)         (* r = src, r = std::move(src) *)
| Read (r : ref) | Size (r : ref).
Inductive ans := None_ | Num (n : N).
Variable vars : list dty.

Definition find (h : heap) (r : ref) : res (dty * place) :=
  match nth_error vars (fst r) with Some t => locate h t (0, fst r) (snd r) | None => UB end.
Definition vecty (t : dty) : res dty := match t with DV t => Ok t | DS => UB end.
Definition quiet_ (r : res heap) : res (heap * ans) := let* h := r in Ok (h, None_).
Definition step (h : heap) (o : op) : res (heap * ans) :=
  match o with
  | Push r s mv => let* ' (t, p) := find h r in let* t := vecty t in let* ' (_, q) := find h s in quiet_ (push_back t h p q mv)
  | Insert r k s mv => let* ' (t, p) := find h r in let* t := vecty t in let* ' (_, q) := find h s in quiet_ (insert t h p k q mv)
  | Pop r => let* ' (t, p) := find h r in let* t := vecty t in quiet_ (pop_back t h p)
  | Clear r => let* ' (t, p) := find h r in let* t := vecty t in quiet_ (clear t h p)
  | Erase r k => let* ' (t, p) := find h r in let* t := vecty t in quiet_ (erase t h p k)
  | Resize r n => let* ' (t, p) := find h r in let* t := vecty t in quiet_ (resize t h p n)
  | Reserve r n => let* ' (t, p) := find h r in let* t := vecty t in quiet_ (reserve t h p n)
  | Write r x => let* ' (t, p) := find h r in quiet_ (mod_ h p (Sc x))
  | Copy r s => let* ' (t, p) := find h r in let* ' (_, q) := find h s in quiet_ (copy_assign t h p q)
  | Move r s => let* ' (t, p) := find h r in let* ' (_, q) := find h s in quiet_ (move_assign t h p q)
  | Read r => let* ' (t, p) := find h r in let* o := rd h p in match o with Sc x => Ok (h, Num x) | Ve _ _ _ _ => UB end
  | Size r => let* ' (t, p) := find h r in let* ' (_, used, _, _) := rdv h p in Ok (h, Num (N.of_nat used))
  end.
Fixpoint run (h : heap) (os : list op) : res (heap * list ans) :=
  match os with [] => Ok (h, []) | o :: os => let* ' (h, a) := step h o in let* ' (h, l) := run h os in Ok (h, a :: l) end.
(* the variables at the start: zero, or an empty vector; and their destructors at the end *)
Definition start : heap := [Some (map (fun t => Some (match t with DS => Sc 0 | DV _ => empty_vec end)) vars)].
Fixpoint finish (h : heap) (k : nat) (ts : list dty) : res heap :=
  match ts with [] => Ok h | t :: ts => let* h := destroy t h (0, k) in finish h (S k) ts end.
End Dmem.
