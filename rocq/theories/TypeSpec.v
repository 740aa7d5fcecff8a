(* What a type looks like in memory, as a tree. *)
From Coq Require Import String.
From Verif Require Import Base TypeModel.

(* what the tree does not show: signedness, size types and pointer kinds *)
Definition rep_of (t : cty) : N := match t with CInt _ r _ | CVoid _ r | CPtr _ r _ | CUn _ r _ | CStr r | CMm _ r _ _ => r | _ => 0%N end.
(* The layout tree down to depth n. full: with everything; otherwise without rep_of. *)
Inductive lay := Cut | Node (h : hd) (rep : N) (l : list lay).
Fixpoint shape (full : bool) (n : nat) (e : env) (t : cty) : lay :=
  match n with O => Cut | S n => Node (head t) (if full then rep_of t else 0%N) (map (shape full n e) (kids e t)) end.

(* types of fixed arity through and through: no struct, variant, tuple, pair inside *)
Fixpoint fixed (t : cty) : bool :=
  match t with
  | CInt _ _ _ | CScalar _ _ | CVoid _ _ | CStr _ => true
  | CPtr _ _ t | CArr _ t | CUn _ _ t | CStrong _ t | CDur _ t | CTime _ t => fixed t
  | CMm _ _ s t => fixed s && fixed t
  | _ => false
  end.
Definition is_pair (t : cty) : bool := match t with CPair _ _ => true | _ => false end.
(* The two types nest alike down to depth n: members of structs, variants, tuples and pairs correspond in number. Types of
   fixed arity count as one. *)
Fixpoint alike (n : nat) (e : env) (t : cty) (e' : env) (u : cty) : Prop :=
  match n with
  | O => True
  | S n => (fixed t = true /\ fixed u = true) \/
           (is_pair t = is_pair u /\ fixed t = fixed u /\ Forall2 (fun t u => alike n e t e' u) (kids e t) (kids e' u))
  end.
(* the types that occur in t *)
Inductive occurs (e : env) (t : cty) : cty -> Prop :=
  | occ_self : occurs e t t
  | occ_kid u v : occurs e t u -> In v (kids e u) -> occurs e t v.
(* different types have different names or sizes, as far as canonical names tell *)
Definition names_ok (e : env) (t : cty) : Prop :=
  forall u v k, occurs e t u -> occurs e t v -> tkey e u = Some k -> tkey e v = Some k -> u = v.
(* a struct without nested structs, variants, tuples, pairs *)
Definition flat (e : env) (i : nat) : Prop := Forall (fun t => fixed t = true) (s_fields (sget e i)).
