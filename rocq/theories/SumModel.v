(* Model of containers/variant.h, containers/optional.h and containers/unique_ptr.h: objects that are constructed
   in place, destroyed and deleted. Values are abstract; moving from a value leaves "moved" of it. Reading or
   destroying an object that is not alive, or as another type than it was made, is UB. Constructing over an
   object that is alive loses that object: it was made but is never destroyed. *)
From Verif Require Import Base FlatModel.

(* running a history *)
Section Run.
Variables W O Y : Type.
Variable step : W -> O -> res (W * Y).
Fixpoint runs (w : W) (ops : list O) : res (W * list Y) :=
  match ops with
  | [] => Ok (w, [])
  | o :: ops => let* ' (w, x) := step w o in let* ' (w, xs) := runs w ops in Ok (w, x :: xs)
  end.
End Run.

(* ---------------- variant.h ---------------- *)
Section Variant.
Variable V : Type.
Variable moved : V -> V.
Inductive cmp := Ceq | Cne | Clt | Cgt | Cle | Cge.
Variable cmpv : cmp -> V -> V -> bool.   (* the operators of the alternatives *)
Variable tys : list nat.                 (* T...: the type of every alternative *)

(* 356-357: idx_ (None for NO_VALUE) and storage_ with the object alive in it: its type and value.
   Lists of 16 and more alternatives do not compile: 326-328 passes no index *)
Record var := Var { vi : option nat; vst : option (nat * V) }.
(* the variables, the number of objects made and the number of objects destroyed *)
Record vworld := VW { vvars : list var; vmade : nat; vgone : nat }.
Inductive vans := VNone | VThrow | VIdx (i : option nat) | VVal (k : nat) (x : V) | VBool (b : bool).

(* 38-48 index_of_type: the first alternative of that type *)
Fixpoint index_of (t : nat) (l : list nat) : option nat :=
  match l with [] => None | u :: l => if t =? u then Some 0 else option_map S (index_of t l) end.
Definition vput (w : vworld) (i : nat) (v : var) : vworld := VW (upd i v (vvars w)) (vmade w) (vgone w).
(* the static apply 241-336 and as 338-346: the object in the storage, read as alternative idx_ *)
Definition elem (v : var) : res (nat * V) :=
  match vi v with
  | None => UB
  | Some k => let* t := idx tys k in
              match vst v with Some (u, x) => if t =? u then Ok (t, x) else UB | None => UB end
  end.
(* 210-217 destruct *)
Definition vdestruct (w : vworld) (i : nat) : res vworld :=
  let* v := idx (vvars w) i in
  match vi v with
  | None => Ok w
  | Some _ => let* _ := elem v in Ok (VW (upd i (Var (vi v) None) (vvars w)) (vmade w) (S (vgone w)))
  end.
(* idx_ = k; new (&storage_) T(x) *)
Definition vbuild (w : vworld) (i k t : nat) (x : V) : res vworld :=
  let* _ := idx (vvars w) i in Ok (VW (upd i (Var (Some k) (Some (t, x))) (vvars w)) (S (vmade w)) (vgone w)).
(* 105-121 operator=(Arg&&); rvalue tells whether Arg is not deduced as a reference: only then the value is
   assigned to the alternative that is already held (111) *)
Definition vassign (w : vworld) (i t : nat) (x : V) (rvalue : bool) : res vworld :=
  match index_of t tys with
  | None => UB       (* does not compile *)
  | Some k =>
      let* v := idx (vvars w) i in
      if match vi v with Some k' => k =? k' | None => false end then
        let* ' (u, _) := elem v in
        Ok (if rvalue && (u =? t) then vput w i (Var (vi v) (Some (u, x))) else w)
      else
        let* w := vdestruct w i in vbuild w i k t x
  end.
(* the value of an object is moved out *)
Definition vtake (w : vworld) (j : nat) : res vworld :=
  let* v := idx (vvars w) j in let* ' (t, x) := elem v in Ok (vput w j (Var (vi v) (Some (t, moved x)))).
(* 175-191 emplace *)
Definition vemplace (w : vworld) (i k : nat) (x : V) : res vworld :=
  let* t := idx tys k in let* w := vdestruct w i in vbuild w i k t x.
(* emplace when the constructor throws: idx_ is set already *)
Definition vemplace_throw (w : vworld) (i k : nat) : res vworld :=
  let* _ := idx tys k in let* w := vdestruct w i in let* _ := idx (vvars w) i in Ok (vput w i (Var (Some k) None)).
(* 195-208 swap; the second component tells whether an exception was thrown *)
Definition same_idx (a b : option nat) : bool :=
  match a, b with Some x, Some y => x =? y | None, None => true | _, _ => false end.
Definition vswap (w : vworld) (i j : nat) : res (vworld * bool) :=
  let* a := idx (vvars w) i in
  let* b := idx (vvars w) j in
  if same_idx (vi a) (vi b) then
    let* ' (t, x) := elem a in let* ' (u, y) := elem b in
    Ok (vput (vput w i (Var (vi a) (Some (t, y)))) j (Var (vi b) (Some (u, x))), false)
  else
    match vi b with
    | None => Ok (w, true)                       (* variant tmp{std::move(o)} throws *)
    | Some kb =>
        let* ' (u, y) := elem b in
        let* w := vtake w j in
        let w := VW (vvars w) (S (vmade w)) (vgone w) in       (* tmp *)
        match vi a with
        | None => Ok (VW (vvars w) (vmade w) (S (vgone w)), true)       (* o = std::move(this) throws, tmp is destroyed *)
        | Some _ =>
            let* ' (t, x) := elem a in
            let* w := vassign w j t x true in
            let* w := vtake w i in
            let* w := vassign w i u y true in
            Ok (VW (vvars w) (vmade w) (S (vgone w)), false)
        end
    end.
(* 133-173 the comparison operators; NO_VALUE is 255 *)
Definition cmpn (c : cmp) (a b : nat) : bool :=
  match c with Ceq => a =? b | Cne => negb (a =? b) | Clt => a <? b | Cgt => b <? a | Cle => a <=? b | Cge => b <=? a end.
Definition inum (i : option nat) : nat := match i with Some k => k | None => 255 end.
Definition vcmp (w : vworld) (c : cmp) (i j : nat) : res bool :=
  let* a := idx (vvars w) i in
  let* b := idx (vvars w) j in
  if same_idx (vi a) (vi b) then let* ' (_, x) := elem a in let* ' (_, y) := elem b in Ok (cmpv c x y)
  else Ok (cmpn c (inum (vi a)) (inum (vi b))).

Inductive vop := VNew | VNewVal (t : nat) (x : V) | VNewCopy (j : nat) | VNewMove (j : nat)
| VAssign (i t : nat) (x : V) | VAssignL (i t : nat) (x : V) | VCopy (i j : nat) | VMove (i j : nat)
| VEmplace (i k : nat) (x : V) | VEmplaceThrow (i k : nat) | VSwap (i j : nat) | VDestroy (i : nat)
| VIndex (i : nat) | VGet (i : nat) | VCmp (c : cmp) (i j : nat).
Definition vmute (r : res vworld) : res (vworld * vans) := let* w := r in Ok (w, VNone).
(* a function of another variant's object; 219-225 and 227-234 the members apply throw if there is none *)
Definition vfrom (w : vworld) (j : nat) (f : var -> nat -> V -> res vworld) : res (vworld * vans) :=
  let* b := idx (vvars w) j in
  match vi b with
  | None => Ok (w, VThrow)
  | Some _ => let* ' (t, x) := elem b in vmute (f b t x)
  end.
Definition vnew (w : vworld) (v : var) (n : nat) : vworld := VW (vvars w ++ [v]) (n + vmade w) (vgone w).
Definition var_step (w : vworld) (o : vop) : res (vworld * vans) :=
  match o with
  | VNew => Ok (vnew w (Var None None) 0, VNone)                                              (* 70 *)
  | VNewVal t x => match index_of t tys with                                                  (* 72-82 *)
                   | Some k => Ok (vnew w (Var (Some k) (Some (t, x))) 1, VNone) | None => UB end
  | VNewCopy j => vfrom w j (fun b t x => Ok (vnew w (Var (vi b) (Some (t, x))) 1))           (* 84-89 *)
  | VNewMove j => vfrom w j (fun b t x => let* w := vtake w j in Ok (vnew w (Var (vi b) (Some (t, x))) 1))    (* 90-95 *)
  | VAssign i t x => vmute (vassign w i t x true)
  | VAssignL i t x => vmute (vassign w i t x false)
  | VCopy i j => vfrom w j (fun _ t x => vassign w i t x false)                               (* 97-99 *)
  | VMove i j => vfrom w j (fun _ t x => let* w := vassign w i t x true in vtake w j)         (* 100-103 *)
  | VEmplace i k x => vmute (vemplace w i k x)
  | VEmplaceThrow i k => let* w := vemplace_throw w i k in Ok (w, VThrow)
  | VSwap i j => let* ' (w, b) := vswap w i j in Ok (w, if b then VThrow else VNone)
  | VDestroy i => let* w := vdestruct w i in let* _ := idx (vvars w) i in Ok (vput w i (Var None None), VNone)   (* 122-127, a new one in its place *)
  | VIndex i => let* v := idx (vvars w) i in Ok (w, VIdx (vi v))                              (* 193 *)
  | VGet i => let* v := idx (vvars w) i in
              match vi v with None => Ok (w, VThrow) | Some k => let* ' (_, x) := elem v in Ok (w, VVal k x) end
  | VCmp c i j => let* b := vcmp w c i j in Ok (w, VBool b)
  end.
End Variant.
Arguments Var {V}. Arguments vi {V}. Arguments vst {V}. Arguments VW {V}. Arguments vvars {V}. Arguments vmade {V}. Arguments vgone {V}.
Arguments VNone {V}. Arguments VThrow {V}. Arguments VIdx {V}. Arguments VVal {V}. Arguments VBool {V}.
Arguments VNew {V}. Arguments VNewVal {V}. Arguments VNewCopy {V}. Arguments VNewMove {V}. Arguments VAssign {V}. Arguments VAssignL {V}.
Arguments VCopy {V}. Arguments VMove {V}. Arguments VEmplace {V}. Arguments VEmplaceThrow {V}. Arguments VSwap {V}. Arguments VDestroy {V}.
Arguments VIndex {V}. Arguments VGet {V}. Arguments VCmp {V}.

(* ---------------- optional.h ---------------- *)
Section Optional.
Variable V : Type.
Variable moved : V -> V.
Variable of_bool : bool -> V.      (* T{o} for an optional o, which converts to bool *)
(* 78-79 valid_ and the object in storage_; there is no destructor *)
Record opt := Opt { ov : bool; ost : option V }.
Record oworld := OW { oopts : list opt; omade : nat; ogone : nat }.
Inductive oans := ONone | OThrow | OBool (b : bool) | OVal (x : V).
Definition oget (o : opt) : res V := match ost o with Some x => Ok x | None => UB end.
(* 29-47 copy and move: the target's object is not destroyed *)
Definition ocopy (w : oworld) (i j : nat) (mv : bool) : res oworld :=
  let* a := idx (oopts w) i in
  let* b := idx (oopts w) j in
  if ov b then
    let* x := oget b in
    let l := upd i (Opt true (Some x)) (oopts w) in
    Ok (OW (if mv then upd j (Opt true (Some (moved x))) l else l) (S (omade w)) (ogone w))
  else Ok (OW (upd i (Opt false (ost a)) (oopts w)) (omade w) (ogone w)).
Inductive oop := ONew | ONewVal (x : V) | ONewCopy (j : nat) | ONewCopyL (j : nat) | ONewMove (j : nat)
| OCopy (i j : nat) | OMove (i j : nat) | ODestroy (i : nat) | OHas (i : nat) | OValue (i : nat) | ODeref (i : nat).
Definition onew (w : oworld) (o : opt) (n : nat) : oworld := OW (oopts w ++ [o]) (n + omade w) (ogone w).
Definition opt_step (w : oworld) (o : oop) : res (oworld * oans) :=
  match o with
  | ONew => Ok (onew w (Opt false None) 0, ONone)                                         (* 12, 20-21 *)
  | ONewVal x => Ok (onew w (Opt true (Some x)) 1, ONone)                                 (* 14-18 *)
  | ONewCopy j => let w' := onew w (Opt false None) 0 in                                  (* 23: a const source *)
                  let* w := ocopy w' (length (oopts w)) j false in Ok (w, ONone)
  | ONewCopyL j => let* b := idx (oopts w) j in                                           (* 14-18 again: the better match for a source that is not const *)
                   Ok (onew w (Opt true (Some (of_bool (ov b)))) 1, ONone)
  | ONewMove j => let w' := onew w (Opt false None) 0 in                                  (* 26 *)
                  let* w := ocopy w' (length (oopts w)) j true in Ok (w, ONone)
  | OCopy i j => let* w := ocopy w i j false in Ok (w, ONone)                             (* 24 *)
  | OMove i j => let* w := ocopy w i j true in Ok (w, ONone)                              (* 27-29 *)
  | ODestroy i => let* _ := idx (oopts w) i in
                  Ok (OW (upd i (Opt false None) (oopts w)) (omade w) (ogone w), ONone)   (* the implicit destructor, a new one in its place *)
  | OHas i => let* a := idx (oopts w) i in Ok (w, OBool (ov a))                           (* 65-66 *)
  | OValue i => let* a := idx (oopts w) i in                                              (* 51-63 *)
                if ov a then let* x := oget a in Ok (w, OVal x) else Ok (w, OThrow)
  | ODeref i => let* a := idx (oopts w) i in let* x := oget a in Ok (w, OVal x)           (* 68-76 *)
  end.
End Optional.
Arguments Opt {V}. Arguments ov {V}. Arguments ost {V}. Arguments OW {V}. Arguments oopts {V}. Arguments omade {V}. Arguments ogone {V}.
Arguments ONone {V}. Arguments OThrow {V}. Arguments OBool {V}. Arguments OVal {V}.
Arguments ONew {V}. Arguments ONewVal {V}. Arguments ONewCopy {V}. Arguments ONewCopyL {V}. Arguments ONewMove {V}. Arguments OCopy {V}.
Arguments OMove {V}. Arguments ODestroy {V}. Arguments OHas {V}. Arguments OValue {V}. Arguments ODeref {V}.

(* ---------------- unique_ptr.h ---------------- *)
Section Uptr.
Variable V : Type.
Inductive hobj := Alive (x : V) | Deleted.
(* 76-77 el_ and self_allocated_ *)
Record uptr := U { uel : option nat; uself : bool }.
Record uworld := UW { uheap : list hobj; uptrs : list uptr }.
Inductive uans := UNone | UBool (b : bool) | UVal (x : V).
Definition uput (w : uworld) (i : nat) (p : uptr) : uworld := UW (uheap w) (upd i p (uptrs w)).
(* 48-54 reset *)
Definition ureset (w : uworld) (i : nat) : res uworld :=
  let* p := idx (uptrs w) i in
  match uself p, uel p with
  | true, Some a => let* x := idx (uheap w) a in
                    match x with
                    | Alive _ => Ok (UW (upd a Deleted (uheap w)) (upd i (U None false) (uptrs w)))
                    | Deleted => UB
                    end
  | _, _ => Ok w
  end.
(* 30-37 move assignment; 24-28 is the same for a fresh target *)
Definition umove (w : uworld) (i j : nat) : res uworld :=
  let* w := ureset w i in
  let* p := idx (uptrs w) j in
  Ok (uput (uput w i p) j (U None false)).
Inductive uop := UMake (x : V) | URaw (x : V) | UWrap (a : nat) (own : bool) | UNew | UMoveNew (j : nat) | UMove (i j : nat) | UReset (i : nat)
| UDestroy (i : nat) | UIsNull (i : nat) | UDeref (i : nat) | USet (i : nat) (x : V).
Definition uptr_step (w : uworld) (o : uop) : res (uworld * uans) :=
  match o with
  | UMake x => Ok (UW (uheap w ++ [Alive x]) (uptrs w ++ [U (Some (length (uheap w))) true]), UNone)      (* 87-90 make_unique *)
  | URaw x => Ok (UW (uheap w ++ [Alive x]) (uptrs w), UNone)                                             (* new T by the user *)
  | UWrap a own => Ok (UW (uheap w) (uptrs w ++ [U (Some a) own]), UNone)                                 (* 18-19 *)
  | UNew => Ok (UW (uheap w) (uptrs w ++ [U None false]), UNone)                                          (* 16, 39 *)
  | UMoveNew j => let* w' := umove (UW (uheap w) (uptrs w ++ [U None false])) (length (uptrs w)) j in Ok (w', UNone)
  | UMove i j => let* w := umove w i j in Ok (w, UNone)
  | UReset i => let* w := ureset w i in Ok (w, UNone)                                                     (* also = nullptr, 40-43 *)
  | UDestroy i => let* w := ureset w i in let* _ := idx (uptrs w) i in Ok (uput w i (U None false), UNone)    (* 45, a new one in its place *)
  | UIsNull i => let* p := idx (uptrs w) i in Ok (w, UBool (match uel p with None => true | Some _ => false end))   (* 56-69 *)
  | UDeref i => let* p := idx (uptrs w) i in                                                              (* 71-75 *)
                match uel p with
                | Some a => let* x := idx (uheap w) a in match x with Alive v => Ok (w, UVal v) | Deleted => UB end
                | None => UB
                end
  | USet i x => let* p := idx (uptrs w) i in
                match uel p with
                | Some a => let* y := idx (uheap w) a in
                            match y with Alive _ => Ok (UW (upd a (Alive x) (uheap w)) (uptrs w), UNone) | Deleted => UB end
                | None => UB
                end
  end.
End Uptr.
Arguments Alive {V}. Arguments Deleted {V}. Arguments UW {V}. Arguments uheap {V}. Arguments uptrs {V}.
Arguments UNone {V}. Arguments UBool {V}. Arguments UVal {V}.
Arguments UMake {V}. Arguments URaw {V}. Arguments UWrap {V}. Arguments UNew {V}. Arguments UMoveNew {V}. Arguments UMove {V}. Arguments UReset {V}.
Arguments UDestroy {V}. Arguments UIsNull {V}. Arguments UDeref {V}. Arguments USet {V}.
