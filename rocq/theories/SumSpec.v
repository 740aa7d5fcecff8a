(* What variant, optional and unique_ptr mean. *)
From Verif Require Import Base FlatModel FlatSpec SumModel.

Section SRuns.
Variables T O Y : Type.
Variable spec : T -> O -> option (T * Y).
Fixpoint sruns (t : T) (ops : list O) : option (T * list Y) :=
  match ops with
  | [] => Some (t, [])
  | o :: ops => match spec t o with
                | Some (t, x) => match sruns t ops with Some (t, xs) => Some (t, x :: xs) | None => None end
                | None => None end
  end.
End SRuns.

(* variant: every variable is empty or holds an alternative and its value *)
Section VSpec.
Variable V : Type.
Variable moved : V -> V.
Variable cmpv : cmp -> V -> V -> bool.
Variable tys : list nat.
Definition vstate := list (option (nat * V)).
Definition holds (t : vstate) (i k : nat) : bool := match nth_error t i with Some (Some (k', _)) => k =? k' | _ => false end.
(* comparison by alternative first; an empty variant is above all alternatives *)
Definition rank (x : option (nat * V)) : option nat := match x with Some (k, _) => Some k | None => None end.
Definition rank_cmp (c : cmp) (a b : option nat) : bool :=
  let lt a b := match a, b with Some x, Some y => x <? y | Some _, None => true | None, _ => false end in
  let eq := same_idx a b in
  match c with Ceq => eq | Cne => negb eq | Clt => lt a b | Cgt => lt b a | Cle => lt a b || eq | Cge => lt b a || eq end.
Definition vsetx (t : vstate) (i : nat) (x : option (nat * V)) : option (vstate * vans V) := guard (i <? length t) (upd i x t, VNone).
Definition var_spec (t : vstate) (o : vop V) : option (vstate * vans V) :=
  match o with
  | VNew => Some (t ++ [None], VNone)
  | VNewVal ty x => match index_of ty tys with Some k => Some (t ++ [Some (k, x)], VNone) | None => None end
  (* copying or moving from an empty variant throws *)
  | VNewCopy j => match nth_error t j with
                  | Some (Some a) => Some (t ++ [Some a], VNone) | Some None => Some (t, VThrow) | None => None end
  | VNewMove j => match nth_error t j with
                  | Some (Some (k, x)) => Some (upd j (Some (k, moved x)) t ++ [Some (k, x)], VNone)
                  | Some None => Some (t, VThrow) | None => None end
  | VAssign i ty x => match index_of ty tys with Some k => vsetx t i (Some (k, x)) | None => None end
  (* assigning an lvalue, or copying a variant, that holds the same alternative is excluded: see C30_same_alternative_refuted *)
  | VAssignL i ty x => match index_of ty tys with
                       | Some k => if holds t i k then None else vsetx t i (Some (k, x)) | None => None end
  | VCopy i j => match nth_error t j with
                 | Some (Some (k, x)) => if negb (i =? j) && holds t i k then None else vsetx t i (Some (k, x))
                 | Some None => Some (t, VThrow) | None => None end
  | VMove i j => match nth_error t j with
                 | Some (Some (k, x)) => guard (negb (i =? j) && (i <? length t)) (upd j (Some (k, moved x)) (upd i (Some (k, x)) t), VNone)
                 | Some None => Some (t, VThrow) | None => None end
  | VEmplace i k x => if k <? length tys then vsetx t i (Some (k, x)) else None
  | VEmplaceThrow i k => None          (* see C30_throwing_constructor_refuted *)
  (* swapping with an empty variant is excluded: see C30_swap_empty_refuted *)
  | VSwap i j => match nth_error t i, nth_error t j with
                 | Some (Some a), Some (Some b) => Some (upd j (Some a) (upd i (Some b) t), VNone) | _, _ => None end
  | VDestroy i => vsetx t i None
  | VIndex i => match nth_error t i with Some x => Some (t, VIdx (rank x)) | None => None end
  | VGet i => match nth_error t i with
              | Some (Some (k, x)) => Some (t, VVal k x) | Some None => Some (t, VThrow) | None => None end
  (* comparing two empty variants is excluded: see C30_empty_equal_refuted *)
  | VCmp c i j => match nth_error t i, nth_error t j with
                  | Some None, Some None => None
                  | Some a, Some b =>
                      Some (t, VBool (match a, b with
                                      | Some (k, x), Some (l, y) => if k =? l then cmpv c x y else rank_cmp c (rank a) (rank b)
                                      | _, _ => rank_cmp c (rank a) (rank b) end))
                  | _, _ => None end
  end.
End VSpec.

(* optional *)
Section OSpec.
Variable V : Type.
Variable moved : V -> V.
Definition ostate := list (option V).
Definition opt_spec (t : ostate) (o : oop V) : option (ostate * oans V) :=
  match o with
  | ONew => Some (t ++ [None], ONone)
  | ONewVal x => Some (t ++ [Some x], ONone)
  | ONewCopy j => match nth_error t j with Some x => Some (t ++ [x], ONone) | None => None end
  | ONewCopyL j => None               (* see C31_optional_copy_refuted *)
  | ONewMove j => match nth_error t j with
                  | Some x => Some (upd j (option_map moved x) t ++ [x], ONone) | None => None end
  | OCopy i j => match nth_error t j with Some x => guard (i <? length t) (upd i x t, ONone) | None => None end
  | OMove i j => match nth_error t j with
                 | Some x => guard (negb (i =? j) && (i <? length t)) (upd j (option_map moved x) (upd i x t), ONone) | None => None end
  | ODestroy i => guard (i <? length t) (upd i None t, ONone)
  | OHas i => match nth_error t i with Some x => Some (t, OBool (match x with Some _ => true | None => false end)) | None => None end
  | OValue i => match nth_error t i with Some (Some x) => Some (t, OVal x) | Some None => Some (t, OThrow) | None => None end
  | ODeref i => match nth_error t i with Some (Some x) => Some (t, OVal x) | _ => None end
  end.
End OSpec.

(* unique_ptr: the heap, and for every pointer nothing, an object it owns or an object it only points to *)
Section USpec.
Variable V : Type.
Inductive upt := Null | Owns (a : nat) | Points (a : nat).
Definition target (p : upt) : option nat := match p with Null => None | Owns a => Some a | Points a => Some a end.
Definition owner (a : nat) (p : upt) : bool := match p with Owns b => a =? b | _ => false end.
Definition ustate := (list (hobj V) * list upt)%type.
(* the object of pointer p is deleted if p owns it *)
Definition drop (h : list (hobj V)) (p : upt) : list (hobj V) := match p with Owns a => upd a Deleted h | _ => h end.
Definition uptr_spec (t : ustate) (o : uop V) : option (ustate * uans V) :=
  let (h, ps) := t in
  match o with
  | UMake x => Some ((h ++ [Alive x], ps ++ [Owns (length h)]), UNone)
  | URaw x => Some ((h ++ [Alive x], ps), UNone)
  (* ownership may be given only to an object that is alive and not owned *)
  | UWrap a own => match nth_error h a with
                   | Some (Alive _) => guard (negb own || negb (existsb (owner a) ps)) ((h, ps ++ [if own then Owns a else Points a]), UNone)
                   | _ => None end
  | UNew => Some ((h, ps ++ [Null]), UNone)
  | UMoveNew j => match nth_error ps j with Some p => Some ((h, upd j Null ps ++ [p]), UNone) | None => None end
  (* moving a pointer onto itself is excluded: see C31_self_move_refuted *)
  | UMove i j => match nth_error ps i, nth_error ps j with
                 | Some p, Some q => guard (negb (i =? j)) ((drop h p, upd j Null (upd i q ps)), UNone) | _, _ => None end
  (* reset of a pointer that does not own its object is excluded: see C31_reset_refuted *)
  | UReset i => match nth_error ps i with
                | Some (Points _) => None
                | Some p => Some ((drop h p, upd i Null ps), UNone) | None => None end
  | UDestroy i => match nth_error ps i with Some p => Some ((drop h p, upd i Null ps), UNone) | None => None end
  | UIsNull i => match nth_error ps i with
                 | Some p => Some (t, UBool (match p with Null => true | _ => false end)) | None => None end
  | UDeref i => match nth_error ps i with
                | Some p => match target p with
                            | Some a => match nth_error h a with Some (Alive x) => Some (t, UVal x) | _ => None end
                            | None => None end
                | None => None end
  | USet i x => match nth_error ps i with
                | Some p => match target p with
                            | Some a => match nth_error h a with Some (Alive _) => Some ((upd a (Alive x) h, ps), UNone) | _ => None end
                            | None => None end
                | None => None end
  end.
(* objects alive; objects made outside; objects given to an owner *)
Definition alive1 (x : hobj V) : nat := match x with Alive _ => 1 | Deleted => 0 end.
Fixpoint nalive (h : list (hobj V)) : nat := match h with [] => 0 | x :: h => alive1 x + nalive h end.
Definition raw1 (o : uop V) : nat := match o with URaw _ => 1 | _ => 0 end.
Definition adopt1 (o : uop V) : nat := match o with UWrap _ true => 1 | _ => 0 end.
Fixpoint raws (ops : list (uop V)) : nat := match ops with [] => 0 | o :: ops => raw1 o + raws ops end.
Fixpoint adopts (ops : list (uop V)) : nat := match ops with [] => 0 | o :: ops => adopt1 o + adopts ops end.
End USpec.

(* What the calls do that var_spec, opt_spec and uptr_spec leave out, although the program goes on after them. *)
Section Actual.
Variable V : Type.
Variable moved : V -> V.
Variable cmpv : cmp -> V -> V -> bool.
Variable tys : list nat.
Variable of_bool : bool -> V.
Definition orelse {X} (a b : option X) : option X := match a with Some x => Some x | None => b end.
Definition var_actual (t : vstate V) (o : vop V) : option (vstate V * vans V) :=
  orelse (var_spec V moved cmpv tys t o)
    match o with
    (* an lvalue or a variant of the alternative already held: nothing happens *)
    | VAssignL i ty _ => match index_of ty tys with Some k => guard (holds V t i k) (t, VNone) | None => None end
    | VCopy i j => match nth_error t j with Some (Some (k, _)) => guard (holds V t i k) (t, VNone) | _ => None end
    (* swapping with an empty variant throws; called on the empty one it has moved the value of the other out *)
    | VSwap i j => match nth_error t i, nth_error t j with
                   | Some (Some _), Some None => Some (t, VThrow)
                   | Some None, Some (Some (k, x)) => Some (upd j (Some (k, moved x)) t, VThrow)
                   | _, _ => None end
    | _ => None
    end.
Definition opt_actual (t : ostate V) (o : oop V) : option (ostate V * oans V) :=
  orelse (opt_spec V moved t o)
    match o with
    (* copying an optional that is not const: whether it has a value is taken for the value *)
    | ONewCopyL j => match nth_error t j with
                     | Some x => Some (t ++ [Some (of_bool (match x with Some _ => true | None => false end))], ONone) | None => None end
    | _ => None
    end.
Definition uptr_actual (t : ustate V) (o : uop V) : option (ustate V * uans V) :=
  orelse (uptr_spec V t o)
    match o with
    (* moving a pointer onto itself: null, and the object is deleted if it was owned *)
    | UMove i j => match nth_error (snd t) i with
                   | Some p => guard (i =? j) ((drop V (fst t) p, upd i Null (snd t)), UNone) | None => None end
    (* reset of a pointer that does not own: nothing happens *)
    | UReset i => match nth_error (snd t) i with Some (Points _) => Some (t, UNone) | _ => None end
    | _ => None
    end.
End Actual.
