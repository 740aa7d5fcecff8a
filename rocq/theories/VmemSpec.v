(* Who owns which memory. *)
From Verif Require Import Base VecModel VmemModel.

Section Spec.
Variable A : Type.
Definition in_use (m : world A) (b : nat) : Prop := exists l, nth_error (heap m) b = Some (Some l).
Definition holds (m : world A) (r : nat) (a : addr) : Prop := exists v, nth_error (vecs m) r = Some v /\ m_el v = a.
(* each block in use belongs to exactly one vector, each vector with a block has one that is in use, and no two vectors are in the same place of a buffer *)
Definition owned (m : world A) : Prop :=
  (forall b, in_use m b <-> exists r, holds m r (Own b)) /\
  (forall a r r', a <> Nil -> holds m r a -> holds m r' a -> r = r').
(* the vectors an operation may change *)
Definition touches (o : op A) (r : nat) : Prop :=
  match o with
  | Push r' _ | PushOwn r' _ | Insert r' _ _ | InsertN r' _ _ _ | InsertInput r' _ _ | InsertRange r' _ _ | Set_ r' _ | Resize r' _ | ResizeTo r' _ _
  | Reserve r' _ | Pop r' | Clear r' | Erase r' _ | EraseRange r' _ _ | Write r' _ _ | Copy r' _ | New r' | View r' _ => r = r'
  | Move r1 r2 => r = r1 \/ r = r2
  | At _ _ | Get _ _ | Front _ | Back _ | Size _ | All _ | Eq _ _ | Lt _ _ | Gt _ _ | Le _ _ | Ge _ _ => False
  end.
End Spec.
