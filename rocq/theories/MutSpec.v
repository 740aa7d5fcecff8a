(* What changing a member of an object graph means: that value is replaced, everything else stays. *)
From Verif Require Import Base Bytes SerialModel SerialSpec ConvSpec MutModel.
Local Open Scope Z_scope.

(* the value with the part at path p replaced by x *)
Fixpoint vset (v : val) (p : list step) (x : val) {struct p} : val :=
  match p with
  | [] => x
  | s :: p =>
    match s, v with
    | Field i, VAgg l => match nth_error l i with Some y => VAgg (upd i (vset y p x) l) | None => v end
    | Value, VSome y => VSome (vset y p x)
    | Alt, VAlt i y => VAlt i (vset y p x)
    | Deref, VObj y => VObj (vset y p x)
    | Elem i, VVec l => match nth_error l i with Some y => VVec (upd i (vset y p x) l) | None => v end
    | Entry i, VTab s g c l =>
        match nth_error l i with Some (Some y) => VTab s g c (upd i (Some (vset y p x)) l) | _ => v end
    | _, _ => v
    end
  end.

Section Types.
Variable env : list ty.
(* the type of the part of v at path p; None: there is no such part *)
Fixpoint ty_at (t : ty) (v : val) (p : list step) {struct p} : option ty :=
  match p with
  | [] => Some t
  | s :: p =>
    match s, t, v with
    | Field i, TAgg fs _ _, VAgg l =>
        match nth_error fs i, nth_error l i with Some (_, t), Some y => ty_at t y p | _, _ => None end
    | Value, TOpt t _ _ _, VSome y => ty_at t y p
    | Alt, TVar ts _ _ _, VAlt i y => match nth_error ts (N.to_nat i) with Some t => ty_at t y p | None => None end
    | Deref, TUniq n, VObj y => ty_at (tyof env n) y p
    | Elem i, TVec _ _ n, VVec l => match nth_error l i with Some y => ty_at (tyof env n) y p | None => None end
    | Entry i, THash n, VTab _ _ _ l =>
        match nth_error l i with Some (Some y) => ty_at (tyof env n) y p | _ => None end
    | _, _, _ => None
    end
  end.
End Types.

(* the number of (non-owning) pointers in a value, and of those before path p, in reading order *)
Fixpoint nptr (v : val) : nat :=
  match v with
  | VPtr => 1
  | VAgg l | VVec l => fold_right (fun v n => nptr v + n)%nat 0%nat l
  | VSome v | VAlt _ v | VObj v => nptr v
  | VTab _ _ _ l => fold_right (fun o n => match o with Some v => nptr v | None => 0 end + n)%nat 0%nat l
  | _ => 0
  end.
Definition onptr (o : option val) : nat := match o with Some v => nptr v | None => 0 end.
Fixpoint ptr_no (v : val) (p : list step) {struct p} : nat :=
  match p with
  | [] => 0
  | s :: p =>
    match s, v with
    | Field i, VAgg l | Elem i, VVec l =>
        match nth_error l i with Some y => list_sum (map nptr (firstn i l)) + ptr_no y p | None => 0 end
    | Value, VSome y | Alt, VAlt _ y | Deref, VObj y => ptr_no y p
    | Entry i, VTab _ _ _ l =>
        match nth_error l i with Some (Some y) => list_sum (map onptr (firstn i l)) + ptr_no y p | _ => 0 end
    | _, _ => 0
    end
  end%nat.
(* pointer number k now points to q *)
Fixpoint retarget (k : nat) (q : option Z) (tr : list ev) : list ev :=
  match tr with
  | [] => []
  | PtrAt s p sz al :: tr => match k with O => PtrAt s q sz al :: tr | S k => PtrAt s p sz al :: retarget k q tr end
  | e :: tr => e :: retarget k q tr
  end.

(* one assignment to a graph with contents v and events tr in the memory [B, B + n) *)
Inductive assigned (env : list ty) (t : ty) (B n : Z) : val * list ev -> asg -> val * list ev -> Prop :=
| as_int v tr p w x : ty_at env t v p = Some (TInt w) -> (x < 256 ^ N.of_nat w)%N ->
    assigned env t B n (v, tr) (SetInt p x) (vset v p (VInt x), tr)
| as_raw v tr p l : ty_at env t v p = Some (TRaw (length l)) -> bytes_ok l ->
    assigned env t B n (v, tr) (SetRaw p l) (vset v p (VRaw l), tr)
| as_ptr v tr p k q : ty_at env t v p = Some (TPtr k) ->
    match q with
    | None => True
    | Some q => B <= q /\ q + size_of (tyof env k) <= B + n /\ q mod align_of (tyof env k) = 0
    end ->
    assigned env t B n (v, tr) (SetPtr p q) (v, retarget (ptr_no v p) q tr).
Inductive assignments (env : list ty) (t : ty) (B n : Z) : val * list ev -> list asg -> val * list ev -> Prop :=
| ass_nil s : assignments env t B n s [] s
| ass_cons s o s1 l s2 : assigned env t B n s o s1 -> assignments env t B n s1 l s2 -> assignments env t B n s (o :: l) s2.

(* the part of v at path p *)
Fixpoint vget (v : val) (p : list step) {struct p} : option val :=
  match p with
  | [] => Some v
  | s :: p =>
    match s, v with
    | Field i, VAgg l | Elem i, VVec l => match nth_error l i with Some y => vget y p | None => None end
    | Value, VSome y | Alt, VAlt _ y | Deref, VObj y => vget y p
    | Entry i, VTab _ _ _ l => match nth_error l i with Some (Some y) => vget y p | _ => None end
    | _, _ => None
    end
  end.
(* paths to different places: they part at some accessor *)
Inductive parted : list step -> list step -> Prop :=
| pt_here s s' p q : s <> s' -> parted (s :: p) (s' :: q)
| pt_later s p q : parted p q -> parted (s :: p) (s :: q).

(* the n bytes at B, as they are written to a file *)
Definition saved (m : mem) (B n : Z) (b : list N) : Prop := rdn m B (Z.to_nat n) = Some b.
(* bytes of a member of the graph *)
Definition member_byte (tr : list ev) (z : Z) : Prop := exists x, In x (places tr) /\ fst x <= z < fst x + snd x.
