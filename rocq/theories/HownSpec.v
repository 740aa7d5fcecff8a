(* What the calls of HownModel.v should be the same as: the call with a copy of the value. *)
From Verif Require Import Base HashModel HashSpec HownModel.

Section Spec.
Variable K V : Type.
Variable keq : K -> K -> bool.
Variable key_of : V -> K.

(* None: m.at throws, as there is no such value *)
Definition with_copy (m : fmap K V) (o : own_op K) : option (op K V) :=
  match lookup K V keq m (source K o) with
  | None => None
  | Some e =>
      Some match o with
           | NestOwn _ => Bracket K V (key_of (snd e))
           | AssignOwn k _ => Assign K V k (snd e)
           | EmplaceOwn k _ => Emplace K V k (snd e)
           | EraseOwn _ => Erase K V (key_of (snd e))
           end
  end.
(* calls that read the reference after the map may have grown *)
Definition reads_late (o : own_op K) : bool := match o with NestOwn _ | AssignOwn _ _ => true | _ => false end.

Variable dv : V.
Definition call_spec (m : fmap K V) (c : call K V) : fmap K V * out K V :=
  match c with
  | Plain _ _ o => spec_step K V keq dv m o
  | Own _ _ o => match with_copy m o with Some p => spec_step K V keq dv m p | None => (m, OOutOfRange K V) end
  end.
Fixpoint call_hist (m : fmap K V) (cs : list (call K V)) : fmap K V * list (out K V) :=
  match cs with
  | [] => (m, [])
  | c :: cs => let (m, x) := call_spec m c in let (m, xs) := call_hist m cs in (m, x :: xs)
  end.
(* the calls that may add an entry; the calls that read their argument late *)
Definition adding (c : call K V) : nat :=
  match c with Plain _ _ o => ins_of K V o | Own _ _ (EraseOwn _) => 0 | Own _ _ _ => 1 end.
Definition late (c : call K V) : bool := match c with Plain _ _ _ => false | Own _ _ o => reads_late o end.
End Spec.
