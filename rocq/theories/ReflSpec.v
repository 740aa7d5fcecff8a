(* What reflection over the members of a struct should do. *)
From Coq Require Import String.
From Verif Require Import Base ReflModel.
Open Scope list_scope.

(* all data members of a struct, those of its bases included, in the order of declaration *)
Fixpoint members_from (c : nat) (cls : list (list fty)) : list member :=
  match cls with
  | [] => []
  | fs :: rest => members_of c fs ++ members_from (S c) rest
  end.
Definition all_members (s : struct) : list member := members_from 0 (s_bases s ++ [s_fields s]).

(* a member that takes one initializer and can be left out *)
Definition ordinary (t : fty) : Prop := t = FVal true true.

(* structs without base classes, all members ordinary *)
Definition plain (s : struct) : Prop := s_bases s = [] /\ Forall ordinary (s_fields s).

(* C arrays (of arrays ...) of ordinary members, at least one element each *)
Inductive arrays : fty -> Prop :=
| arr_val : arrays (FVal true true)
| arr_arr : forall n t, 0 < n -> arrays t -> arrays (FArr n t).

Open Scope string_scope.
(* pieces separated by sep *)
Fixpoint join (sep : string) (l : list string) : string :=
  match l with
  | [] => ""
  | [x] => x
  | x :: l => x ++ sep ++ join sep l
  end.

(* "name=value", for members without a name just the value *)
Fixpoint labelled (names vals : list string) : list string :=
  match vals, names with
  | [], _ => []
  | v :: vals, n :: names => (n ++ "=" ++ v) :: labelled names vals
  | v :: vals, [] => v :: labelled [] vals
  end.
