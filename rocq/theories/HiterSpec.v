(* What invalidates references to the entry with key k. *)
From Verif Require Import Base HashModel HashSpec.

Section Spec.
Variable K V : Type.
Variable keq : K -> K -> bool.

(* the operation removes or changes the entry with key k, or promises nothing *)
Definition touches (o : op K V) (k : K) : bool :=
  match o with
  | Assign _ _ k' _ | Erase _ _ k' => keq k k'
  | Clear _ _ | Rehash _ _ | Copy _ _ => true
  | _ => false
  end.
(* the operation adds an entry to the map m *)
Definition adds (o : op K V) (m : fmap K V) : Prop :=
  match o with
  | Emplace _ _ k _ | Assign _ _ k _ | Bracket _ _ k => lookup K V keq m k = None
  | _ => False
  end.
End Spec.
