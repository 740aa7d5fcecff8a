(* A stored rtree: a collection of entries, and whether the collection was saved since its last change. *)
From Verif Require Import Base RtModel RtSpec RtpModel.

Section Spec.
Variables (C : Type) (lt : C -> C -> bool) (V : Type) (veq : V -> V -> bool).
Definition reads (o : op C V) : bool := match o with Search _ _ _ _ | Size _ _ => true | _ => false end.
(* is the collection saved after the operation, if saved says whether it was before? *)
Definition saved_after (saved : bool) (o : pop C V) : bool :=
  match o with POp o => saved && reads o | PSave => true | PSaveKilled => false | PReopen _ => saved end.
(* the process never ends with an unsaved collection *)
Fixpoint careful (saved : bool) (ops : list (pop C V)) : bool :=
  match ops with
  | [] => true
  | o :: ops => match o with PReopen _ => saved | _ => true end && careful (saved_after saved o) ops
  end.
(* saving and reopening change nothing *)
Inductive psruns : list (rect C * V) -> list (pop C V) -> list (rect C * V) -> list (out C V) -> Prop :=
  | PR_nil s : psruns s [] s []
  | PR_op s o s' x ops s'' xs : sstep C lt V veq s o s' x -> psruns s' ops s'' xs -> psruns s (POp o :: ops) s'' (x :: xs)
  | PR_save s ops s' xs : psruns s ops s' xs -> psruns s (PSave :: ops) s' (OUnit _ _ :: xs)
  | PR_killed s ops s' xs : psruns s ops s' xs -> psruns s (PSaveKilled :: ops) s' (OUnit _ _ :: xs)
  | PR_reopen s g ops s' xs : psruns s ops s' xs -> psruns s (PReopen g :: ops) s' (OUnit _ _ :: xs).
Definition tree_ops (ops : list (pop C V)) : list (op C V) := flat_map (fun o => match o with POp o => [o] | _ => [] end) ops.
End Spec.
