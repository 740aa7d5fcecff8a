(* What nested vectors are supposed to do: values are trees, assigned and copied as a whole; and which memory belongs to which value. *)
From Verif Require Import Base DmemModel.

Inductive val := VS (x : N) | VL (l : list val).
Definition zero (t : dty) : val := match t with DS => VS 0 | DV _ => VL [] end.
(* what is left of a value that was moved from *)
Definition moved (v : val) : val := match v with VS x => VS x | VL _ => VL [] end.
Fixpoint aget (v : val) (path : list nat) : option val :=
  match path, v with [], _ => Some v | i :: path, VL l => match nth_error l i with Some v => aget v path | None => None end | _, _ => None end.
Fixpoint aset (v : val) (path : list nat) (x : val) : val :=
  match path, v with [], _ => x | i :: path, VL l => VL (match nth_error l i with Some v => upd i (aset v path x) l | None => l end) | _, _ => v end.
Fixpoint tyat (t : dty) (path : list nat) : option dty :=
  match path, t with [], _ => Some t | _ :: path, DV t => tyat t path | _, DS => None end.

Section Spec.
Variable w : N.
Variable vars : list dty.
Definition aref (vs : list val) (r : ref) : option val := match nth_error vs (fst r) with Some v => aget v (snd r) | None => None end.
Definition aput (vs : list val) (r : ref) (x : val) : list val :=
  match nth_error vs (fst r) with Some v => upd (fst r) (aset v (snd r) x) vs | None => vs end.
Definition tyref (r : ref) : option dty := match nth_error vars (fst r) with Some t => tyat t (snd r) | None => None end.
Definition small (n : nat) : bool := (N.of_nat n <=? 2 ^ (w - 1))%N.
Definition same_ty (a b : option dty) : bool :=
  match a, b with Some a, Some b => (fix eqt a b := match a, b with DS, DS => true | DV a, DV b => eqt a b | _, _ => false end) a b | _, _ => false end.
Definition elems (t : option dty) : option dty := match t with Some (DV t) => Some t | _ => None end.
Definition scalars (t : option dty) : bool := match t with Some (DV DS) => true | _ => false end.
(* neither of two places lies in the other: different variables, or different elements of a vector on the way *)
Fixpoint diverge (p q : list nat) : bool := match p, q with i :: p, j :: q => if i =? j then diverge p q else true | _, _ => false end.
Definition separate (r s : ref) : bool := negb (fst r =? fst s) || diverge (snd r) (snd s).
Definition same (r s : ref) : bool := (fst r =? fst s) && if list_eq_dec Nat.eq_dec (snd r) (snd s) then true else false.
Definition take (vs : list val) (s : ref) (x : val) (mv : bool) : list val := if mv then aput vs s (moved x) else vs.
Definition vec (vs : list val) (r : ref) : option (list val) := match aref vs r with Some (VL l) => Some l | _ => None end.

(* One operation on values. None: outside of what is claimed. Neither of source and target lies in the other, except that a place may be assigned
   to itself; a vector of vectors that is copied over or shrunk is empty before; sizes are at most half of the range of size_type. *)
Definition astep (vs : list val) (o : op) : option (list val * ans) :=
  match o with
  | Push r s mv => match vec vs r, aref vs s with
      | Some l, Some x => if separate r s && same_ty (elems (tyref r)) (tyref s) && small (length l + 1)
                          then Some (take (aput vs r (VL (l ++ [x]))) s x mv, None_) else None
      | _, _ => None end
  | Insert r k s mv => match vec vs r, aref vs s with
      | Some l, Some x => if separate r s && same_ty (elems (tyref r)) (tyref s) && small (length l + 1) && (k <=? length l)
                          then Some (take (aput vs r (VL (firstn k l ++ x :: skipn k l))) s x mv, None_) else None
      | _, _ => None end
  | Pop r => match vec vs r with Some [] | None => None | Some l => Some (aput vs r (VL (removelast l)), None_) end
  | Clear r => match vec vs r with Some l => Some (aput vs r (VL []), None_) | None => None end
  | Erase r k => match vec vs r with Some l => if k <? length l then Some (aput vs r (VL (firstn k l ++ skipn (k + 1) l)), None_) else None | None => None end
  | Resize r n => match vec vs r, elems (tyref r) with
      | Some l, Some t => if ((length l <=? n) || scalars (tyref r)) && small n
                          then Some (aput vs r (VL (firstn n l ++ repeat (zero t) (n - length l))), None_) else None
      | _, _ => None end
  | Reserve r n => match vec vs r with Some l => if small n then Some (vs, None_) else None | None => None end
  | Write r x => match aref vs r with Some (VS _) => Some (aput vs r (VS x), None_) | _ => None end
  | Copy r s => match aref vs r, aref vs s with
      | Some y, Some x => if same r s then Some (vs, None_) else if separate r s && same_ty (tyref r) (tyref s)
                             && match y with VL (_ :: _) => scalars (tyref r) | _ => true end
                          then Some (aput vs r x, None_) else None
      | _, _ => None end
  | Move r s => match aref vs r, aref vs s with
      | Some y, Some x => if same r s then Some (aput vs r (moved x), None_) else if separate r s && same_ty (tyref r) (tyref s) then Some (aput (aput vs r x) s (moved x), None_) else None
      | _, _ => None end
  | Read r => match aref vs r with Some (VS x) => Some (vs, Num x) | _ => None end
  | Size r => match vec vs r with Some l => Some (vs, Num (N.of_nat (length l))) | None => None end
  end.
(* the places that an operation may change *)
Definition modified (o : op) : list ref :=
  match o with
  | Push r s mv | Insert r _ s mv => r :: if mv then [s] else []
  | Move r s => [r; s]
  | Pop r | Clear r | Erase r _ | Resize r _ | Write r _ | Copy r _ => [r]
  | Reserve _ _ | Read _ | Size _ => []
  end.
Fixpoint arun (vs : list val) (os : list op) : option (list val * list ans) :=
  match os with
  | [] => Some (vs, [])
  | o :: os => match astep vs o with Some (vs, a) => match arun vs os with Some (vs, l) => Some (vs, a :: l) | None => None end | None => None end
  end.

(* ---- which memory belongs to a value ---- *)
Inductive each3 {A B C} (R : A -> B -> C -> Prop) : list A -> list B -> list C -> Prop :=
| e3_nil : each3 R [] [] []
| e3_cons a b c la lb lc : R a b c -> each3 R la lb lc -> each3 R (a :: la) (b :: lb) (c :: lc).
Definition plain (s : option obj) : Prop := match s with Some (Ve _ _ _ _) => False | _ => True end.
(* The object o of type t in the heap has the value v, in the blocks F. *)
Fixpoint rep (h : heap) (t : dty) (o : obj) (v : val) (F : list nat) : Prop :=
  match t, o, v with
  | DS, Sc x, VS y => x = y /\ F = []
  | DV t, Ve el used cap self, VL vs =>
      used = length vs /\ (N.of_nat used <= 2 ^ (w - 1))%N /\
      match el with
      | None => used = 0 /\ cap = 0 /\ self = false /\ F = []
      | Some b => self = true /\ exists os sp Fs, blk h b = Some (map Some os ++ sp) /\ cap = length os + length sp /\ Forall plain sp /\
                    F = b :: concat Fs /\ each3 (rep h t) os vs Fs
      end
  | _, _, _ => False
  end.
Definition in_use (h : heap) (b : nat) : Prop := blk h b <> None.
(* The variables have the values vs; every block in use belongs to exactly one place of exactly one variable (block 0 are the variables themselves). *)
Definition holds (h : heap) (vs : list val) : Prop :=
  exists os Fs, blk h 0 = Some (map Some os) /\ length Fs = length vars /\ length os = length vars /\ length vs = length vars /\
    (forall k t o v, nth_error vars k = Some t -> nth_error os k = Some o -> nth_error vs k = Some v -> rep h t o v (nth k Fs [])) /\
    NoDup (0 :: concat Fs) /\ (forall b, in_use h b <-> In b (0 :: concat Fs)).
End Spec.
