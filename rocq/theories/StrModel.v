(* Model of containers/string.h and containers/cstring.h.
   Characters are numbers. malloc always succeeds. Memory that strings may view but not own is a list of
   external buffers that stay alive and unchanged; memory the strings allocate is a list of blocks. The
   objects are variables 0, 1, 2, ... Freeing anything but a live block, reading a freed block and every
   access outside a buffer are UB. *)
From Verif Require Import Base FlatModel MmModel.

Definition str := list N.
Inductive block := Live (s : str) | Freed.
(* what data() of a string that is not inline points to *)
Inductive addr := AExt (e off : nat) | AOwn (b : nat).
(* where the characters of an argument are: in a buffer of the caller, in memory, or in the inline buffer of object j *)
Inductive place := PLit (s : str) | PAddr (a : addr) (off : nat) | PObj (j off : nat).
(* arguments of assignments, starts_with and ends_with: a temporary buffer, a piece of an external buffer or a
   piece of what object j holds *)
Inductive src := SLit (s : str) | SExt (e off len : nat) | SStr (j off len : nat).
(* the answers *)
Inductive sout := YNone | YStr (s : str) | YNum (n : nat) | YBool (b : bool).

Definition slice (s : str) (off len : nat) : res str :=
  if off + len <=? length s then Ok (firstn len (skipn off s)) else UB.
(* static_cast<msize_t>(s.size()) and mstrlen: string.h:19-23, 81-90 *)
Definition cut32 (n : nat) : nat := N.to_nat (N.of_nat n mod W32).
Definition zfill (s : str) (off n : nat) : res str :=
  if off + n <=? length s then Ok (firstn off s ++ repeat 0%N n ++ skipn (off + n) s) else UB.
Fixpoint memcmp_lt (a b : str) : bool :=
  match a, b with x :: a, y :: b => (x <? y)%N || ((x =? y)%N && memcmp_lt a b) | _, _ => false end.
Fixpoint memcmp_eq (a b : str) : bool :=
  match a, b with x :: a, y :: b => (x =? y)%N && memcmp_eq a b | _, _ => true end.
(* std::basic_string_view: == compares sizes, then contents; < compares the common part, then the sizes *)
Definition view_eq (a b : str) : bool := (length a =? length b) && memcmp_eq a b.
Definition view_lt (a b : str) : bool := memcmp_lt a b || (memcmp_eq a b && (length a <? length b)).

Section Mem.
Variable O : Type.
Record world := World { w_ext : list str; w_own : list block; w_obj : list O }.
Definition load_addr (w : world) (a : addr) (off len : nat) : res str :=
  match a with
  | AExt e o => let* s := idx (w_ext w) e in slice s (o + off) len
  | AOwn b => let* c := idx (w_own w) b in match c with Live s => slice s off len | Freed => UB end
  end.
Definition release (w : world) (a : addr) : res world :=          (* std::free *)
  match a with
  | AExt _ _ => UB
  | AOwn b => let* c := idx (w_own w) b in
              match c with Live _ => Ok (World (w_ext w) (upd b Freed (w_own w)) (w_obj w)) | Freed => UB end
  end.
Definition alloc (w : world) (s : str) : world * addr :=
  (World (w_ext w) (w_own w ++ [Live s]) (w_obj w), AOwn (length (w_own w))).
Definition put_obj (w : world) (i : nat) (x : O) : world := World (w_ext w) (w_own w) (upd i x (w_obj w)).
Definition set_own (w : world) (b : nat) (s : str) : world := World (w_ext w) (upd b (Live s) (w_own w)) (w_obj w).
End Mem.
Arguments World {O}. Arguments w_ext {O}. Arguments w_own {O}. Arguments w_obj {O}.
Arguments load_addr {O}. Arguments release {O}. Arguments alloc {O}. Arguments put_obj {O}. Arguments set_own {O}.

(* ---------------- string.h ---------------- *)
Section String.
Variable lim : nat.        (* short_length_limit: 15 / sizeof(CharT), 96 *)
Variable raw : bool.       (* Ptr is a plain pointer *)
Variable nullchar : N.     (* the last inline character once the inline buffer is overwritten by a null pointer *)

(* 426-445: inline characters, or pointer, size_ and self_allocated_ *)
Inductive gs := Short (s : str) | Heap (p : option addr) (n : nat) (self : bool).
Definition gs0 : gs := Heap None 0 false.
Notation sworld := (world gs).

(* 73-78 reset *)
Definition reset (w : sworld) (i : nat) : res sworld :=
  let* x := idx (w_obj w) i in
  let* w := match x with Heap (Some a) _ true => release w a | _ => Ok w end in
  Ok (put_obj w i gs0).
(* 344-352 size *)
Fixpoint find0 (s : str) : nat := match s with [] => 0 | c :: s => if (c =? 0)%N then 0 else S (find0 s) end.
Definition gsize (x : gs) : nat := match x with Short s => find0 s | Heap _ n _ => n end.
(* 333-342 data *)
Definition gdata (x : gs) (i : nat) : place :=
  match x with Short _ => PObj i 0 | Heap (Some a) _ _ => PAddr a 0 | Heap None _ _ => PLit [] end.
(* the inline buffer of an object that is not short: it was just reset *)
Definition inline (x : gs) : str := match x with Short s => s | Heap _ _ _ => repeat 0%N (lim - 1) ++ [nullchar] end.
Definition load (w : sworld) (p : place) (len : nat) : res str :=
  match p with
  | PLit s => slice s 0 len
  | PAddr a off => load_addr w a off len
  | PObj j off => let* x := idx (w_obj w) j in slice (inline x) off len
  end.
Definition shift (p : place) (k : nat) : place :=
  match p with PLit s => PLit (skipn k s) | PAddr a off => PAddr a (off + k) | PObj j off => PObj j (off + k) end.
(* data() + off and the size of an argument *)
Definition argument (w : sworld) (a : src) : res (place * nat) :=
  match a with
  | SLit s => Ok (PLit s, cut32 (length s))
  | SExt e off len => Ok (PAddr (AExt e 0) off, cut32 len)
  | SStr j off len => let* x := idx (w_obj w) j in
      if off + len <=? gsize x then Ok (shift (gdata x j) off, cut32 len) else UB
  end.
(* 98-118 set_owning: the characters are read after reset() *)
Definition set_owning (w : sworld) (i : nat) (p : place) (len : nat) : res sworld :=
  let* w := reset w i in
  if len =? 0 then Ok w
  else
    let* s := load w p len in
    if len <=? lim then Ok (put_obj w i (Short (s ++ repeat 0%N (lim - len))))
    else let (w, a) := alloc w s in Ok (put_obj w i (Heap (Some a) len true)).
(* 130-144 set_non_owning *)
Definition set_non_owning (w : sworld) (i : nat) (p : place) (len : nat) : res sworld :=
  let* w := reset w i in
  if len =? 0 then Ok w
  else if len <=? lim then set_owning w i p len
  else match p with
       | PAddr (AExt e o) off => Ok (put_obj w i (Heap (Some (AExt e (o + off))) len false))
       | PAddr (AOwn b) 0 => Ok (put_obj w i (Heap (Some (AOwn b)) len false))
       | _ => UB        (* not modelled: a view of an inline or temporary buffer or into the middle of an owned one *)
       end.
(* 146-161 move_from *)
Definition move_from (w : sworld) (i j : nat) : res sworld :=
  if i =? j then Ok w
  else
    let* w := reset w i in
    let* y := idx (w_obj w) j in
    let w := put_obj w i y in
    Ok (if raw then put_obj w j (Heap None 0 false)
        else match y with Short _ => w | Heap _ _ self => put_obj w j (Heap None 0 self) end).
(* 163-175 copy_from *)
Definition copy_from (w : sworld) (i j : nat) : res sworld :=
  if i =? j then Ok w
  else
    let* w := reset w i in
    let* y := idx (w_obj w) j in
    match y with
    | Short _ => Ok (put_obj w i y)
    | Heap _ _ self => if self then set_owning w i (gdata y j) (gsize y) else set_non_owning w i (gdata y j) (gsize y)
    end.
(* 474-480 basic_string::operator= and 524-531 basic_string_view::operator= *)
Definition assign_string (w : sworld) (i j : nat) : res sworld :=
  if i =? j then Ok w else let* y := idx (w_obj w) j in set_owning w i (gdata y j) (gsize y).
Definition assign_view (w : sworld) (i j : nat) : res sworld :=
  let* y := idx (w_obj w) j in set_non_owning w i (gdata y j) (gsize y).
(* 354-366 erase *)
Definition cut_out (s : str) (size pos n : nat) : res str :=
  if pos + n <=? size then
    let* s := bmove s pos (pos + n) (size - (pos + n)) in zfill s (size - n) n
  else UB.
Definition erase (w : sworld) (i pos n : nat) : res sworld :=
  let* x := idx (w_obj w) i in
  let* w := match x with
            | Heap _ m false => set_owning w i (gdata x i) m
            | _ => Ok w
            end in
  let* x := idx (w_obj w) i in
  match x with
  | Short s => let* s := cut_out s (gsize x) pos n in Ok (put_obj w i (Short s))
  | Heap (Some (AOwn b)) m self =>
      let* c := idx (w_own w) b in
      match c with
      | Live s => let* s := cut_out s m pos n in Ok (put_obj (set_own w b s) i (Heap (Some (AOwn b)) (m - n) self))
      | Freed => UB
      end
  | Heap (Some (AExt _ _)) _ _ => UB
  | Heap None m self => if pos + n <=? m then Ok (put_obj w i (Heap None (m - n) self)) else UB
  end.
(* 185-188 operator[] used for writing *)
Definition write (w : sworld) (i p : nat) (c : N) : res sworld :=
  let* x := idx (w_obj w) i in
  match x with
  | Short s => let* s := put s p c in Ok (put_obj w i (Short s))
  | Heap (Some (AOwn b)) _ _ =>
      let* blk := idx (w_own w) b in
      match blk with Live s => let* s := put s p c in Ok (set_own w b s) | Freed => UB end
  | _ => UB
  end.
(* 178-181 view *)
Definition view (w : sworld) (i : nat) : res str :=
  let* x := idx (w_obj w) i in load w (gdata x i) (gsize x).
(* 368-395 starts_with, 397-424 ends_with *)
Definition starts_with (w : sworld) (i : nat) (p : place) (len : nat) : res bool :=
  let* x := idx (w_obj w) i in
  if gsize x <? len then Ok false
  else if len =? 0 then Ok true
  else if gsize x =? 0 then Ok false
  else let* a := load w p len in let* b := load w (gdata x i) len in Ok (memcmp_eq a b).
Definition ends_with (w : sworld) (i : nat) (p : place) (len : nat) : res bool :=
  let* x := idx (w_obj w) i in
  if gsize x <? len then Ok false
  else if len =? 0 then Ok true
  else if gsize x =? 0 then Ok false
  else let* a := load w p len in let* b := load w (shift (gdata x i) (gsize x - len)) len in Ok (memcmp_eq a b).

Inductive sop := SNew | SBuf (s : str) | SOwn (i : nat) (a : src) | SNon (i e off len : nat) | SMove (i j : nat)
| SCopy (i j : nat) | SAssign (i j : nat) | SAssignView (i j : nat) | SErase (i pos n : nat) | SWrite (i p : nat) (c : N)
| SDestroy (i : nat) | SView (i : nat) | SSize (i : nat) | SEq (i j : nat) | SLt (i j : nat)
| SStarts (i : nat) (a : src) | SEnds (i : nat) (a : src).
Definition quiet {O} (r : res (world O)) : res (world O * sout) := let* w := r in Ok (w, YNone).
(* SNew constructs an object (31), SDestroy runs the destructor and constructs a new empty object in its place (32) *)
Definition str_step (w : sworld) (o : sop) : res (sworld * sout) :=
  match o with
  | SNew => Ok (World (w_ext w) (w_own w) (w_obj w ++ [gs0]), YNone)
  | SBuf s => Ok (World (w_ext w ++ [s]) (w_own w) (w_obj w), YNone)
  | SOwn i a => let* ' (p, len) := argument w a in quiet (set_owning w i p len)
  | SNon i e off len => let* ' (p, len) := argument w (SExt e off len) in quiet (set_non_owning w i p len)
  | SMove i j => quiet (move_from w i j)
  | SCopy i j => quiet (copy_from w i j)
  | SAssign i j => quiet (assign_string w i j)
  | SAssignView i j => quiet (assign_view w i j)
  | SErase i pos n => quiet (erase w i pos n)
  | SWrite i p c => quiet (write w i p c)
  | SDestroy i => quiet (reset w i)
  | SView i => let* s := view w i in Ok (w, YStr s)
  | SSize i => let* x := idx (w_obj w) i in Ok (w, YNum (gsize x))
  | SEq i j => let* a := view w i in let* b := view w j in Ok (w, YBool (view_eq a b))
  | SLt i j => let* a := view w i in let* b := view w j in Ok (w, YBool (view_lt a b))
  | SStarts i a => let* ' (p, len) := argument w a in let* b := starts_with w i p len in Ok (w, YBool b)
  | SEnds i a => let* ' (p, len) := argument w a in let* b := ends_with w i p len in Ok (w, YBool b)
  end.
End String.

(* ---------------- cstring.h ---------------- *)
Section Cstring.
Variable raw : bool.       (* Ptr is a plain pointer *)

(* 304-344: inline characters and remaining_, or pointer, size_ and self_allocated_ *)
Inductive cs := CShort (s : str) (rem : nat) | CHeap (p : option addr) (n : nat) (self : bool).
Definition clim : nat := 15.
Definition cs0 : cs := CShort (repeat 0%N clim) clim.
Notation cworld := (world cs).

(* 63-68 reset *)
Definition creset (w : cworld) (i : nat) : res cworld :=
  let* x := idx (w_obj w) i in
  let* w := match x with
            | CHeap (Some a) _ true => release w a
            | _ => Ok w          (* free(nullptr) does nothing *)
            end in
  Ok (put_obj w i cs0).
Definition csize (x : cs) : nat := match x with CShort _ r => clim - r | CHeap _ n _ => n end.       (* 302, 341-344 *)
Definition cdata (x : cs) (i : nat) : place :=                                                        (* 287-297 *)
  match x with CShort _ _ => PObj i 0 | CHeap (Some a) _ _ => PAddr a 0 | CHeap None _ _ => PLit [] end.
(* the 16 bytes of an inline object: the characters and remaining_ *)
Definition cinline (x : cs) : str := match x with CShort s r => s ++ [N.of_nat r] | CHeap _ _ _ => [] end.
Definition cload (w : cworld) (p : place) (len : nat) : res str :=
  match p with
  | PLit s => slice s 0 len
  | PAddr a off => load_addr w a off len
  | PObj j off => let* x := idx (w_obj w) j in slice (cinline x) off len
  end.
Definition cargument (w : cworld) (a : src) : res (place * nat) :=
  match a with
  | SLit s => Ok (PLit s, cut32 (length s))
  | SExt e off len => Ok (PAddr (AExt e 0) off, cut32 len)
  | SStr j off len => let* x := idx (w_obj w) j in
      if off + len <=? csize x then Ok (shift (cdata x j) off, cut32 len) else UB
  end.
(* 91-92 remaining_: 15 - len in 32 bits, read as signed, at least -1, cut to 8 bits; None if negative *)
Definition remaining (len : nat) : option nat :=
  let u := ((15 + W32 - N.of_nat len) mod W32)%N in
  let z := if (u <? 2147483648)%N then Z.of_N u else (Z.of_N u - 4294967296)%Z in
  let m := Z.max z (-1) in
  let b := Z.to_N (m mod 256) in
  if (b <? 128)%N then Some (N.to_nat b) else None.
(* 85-99 set_owning *)
Definition cset_owning (w : cworld) (i : nat) (p : place) (len : nat) : res cworld :=
  let* w := creset w i in
  if len =? 0 then Ok w
  else match remaining len with
  | Some r =>
      let* x := idx (w_obj w) i in
      let* s := cload w p len in
      if len <=? clim then Ok (put_obj w i (CShort (s ++ repeat 0%N (clim - len)) r)) else UB
  | None =>
      let* s := cload w p len in
      let (w, a) := alloc w (s ++ [0%N]) in Ok (put_obj w i (CHeap (Some a) len true))
  end.
(* 113-117 set_non_owning *)
Definition cset_non_owning (w : cworld) (i : nat) (p : place) (len : nat) : res cworld :=
  let* w := creset w i in
  match p with
  | PAddr (AExt e o) off => Ok (put_obj w i (CHeap (Some (AExt e (o + off))) len false))
  | PAddr (AOwn b) 0 => Ok (put_obj w i (CHeap (Some (AOwn b)) len false))
  | PLit [] => Ok (put_obj w i (CHeap None len false))
  | _ => UB        (* not modelled: a view of an inline or temporary buffer or into the middle of an owned one *)
  end.
(* 119-127 move_from: the target is overwritten without reset *)
Definition cmove_from (w : cworld) (i j : nat) : res cworld :=
  let* _ := idx (w_obj w) i in
  let* y := idx (w_obj w) j in
  let w := put_obj w i y in
  Ok (if raw then put_obj w j (CShort (repeat 0%N clim) 0)
      else match y with CShort _ _ => w | CHeap _ _ _ => put_obj w j cs0 end).
(* 129-139 copy_from *)
Definition ccopy_from (w : cworld) (i j : nat) : res cworld :=
  let* w := creset w i in
  let* y := idx (w_obj w) j in
  match y with
  | CShort _ _ => Ok (put_obj w i y)
  | CHeap _ _ self => if self then cset_owning w i (cdata y j) (csize y) else cset_non_owning w i (cdata y j) (csize y)
  end.
(* 374-377 basic_cstring::operator= and 417-424 basic_cstring_view::operator= *)
Definition cassign_string (w : cworld) (i j : nat) : res cworld :=
  let* y := idx (w_obj w) j in cset_owning w i (cdata y j) (csize y).
Definition cassign_view (w : cworld) (i j : nat) : res cworld :=
  let* y := idx (w_obj w) j in cset_non_owning w i (cdata y j) (csize y).
(* 148-151 operator[] used for writing *)
Definition cwrite (w : cworld) (i p : nat) (c : N) : res cworld :=
  let* x := idx (w_obj w) i in
  match x with
  | CShort s r => let* s := put s p c in Ok (put_obj w i (CShort s r))
  | CHeap (Some (AOwn b)) _ _ =>
      let* blk := idx (w_own w) b in
      match blk with Live s => let* s := put s p c in Ok (set_own w b s) | Freed => UB end
  | _ => UB
  end.
Definition cview (w : cworld) (i : nat) : res str :=                                     (* 142-143 *)
  let* x := idx (w_obj w) i in cload w (cdata x i) (csize x).
(* the characters data()[0] .. data()[size()], as a reader of a C string would see them *)
Definition cstr (w : cworld) (i : nat) : res str :=
  let* x := idx (w_obj w) i in cload w (cdata x i) (csize x + 1).

Inductive cop := CNew | CBuf (s : str) | COwn (i : nat) (a : src) | CNon (i e off len : nat) | CMove (i j : nat)
| CCopy (i j : nat) | CAssign (i j : nat) | CAssignView (i j : nat) | CWrite (i p : nat) (c : N)
| CDestroy (i : nat) | CView (i : nat) | CStr (i : nat) | CSize (i : nat) | CEq (i j : nat) | CLt (i j : nat).
Definition cstr_step (w : cworld) (o : cop) : res (cworld * sout) :=
  match o with
  | CNew => Ok (World (w_ext w) (w_own w) (w_obj w ++ [cs0]), YNone)
  | CBuf s => Ok (World (w_ext w ++ [s]) (w_own w) (w_obj w), YNone)
  | COwn i a => let* ' (p, len) := cargument w a in quiet (cset_owning w i p len)
  | CNon i e off len => let* ' (p, len) := cargument w (SExt e off len) in quiet (cset_non_owning w i p len)
  | CMove i j => quiet (cmove_from w i j)
  | CCopy i j => quiet (ccopy_from w i j)
  | CAssign i j => quiet (cassign_string w i j)
  | CAssignView i j => quiet (cassign_view w i j)
  | CWrite i p c => quiet (cwrite w i p c)
  | CDestroy i => quiet (creset w i)
  | CView i => let* s := cview w i in Ok (w, YStr s)
  | CStr i => let* s := cstr w i in Ok (w, YStr s)
  | CSize i => let* x := idx (w_obj w) i in Ok (w, YNum (csize x))
  | CEq i j => let* a := cview w i in let* b := cview w j in Ok (w, YBool (view_eq a b))
  | CLt i j => let* a := cview w i in let* b := cview w j in Ok (w, YBool (view_lt a b))
  end.
End Cstring.

(* running a history *)
Section Run.
Variables W O : Type.
Variable step : W -> O -> res (W * sout).
Fixpoint run (w : W) (ops : list O) : res (W * list sout) :=
  match ops with
  | [] => Ok (w, [])
  | o :: ops => let* ' (w, x) := step w o in let* ' (w, xs) := run w ops in Ok (w, x :: xs)
  end.
End Run.
