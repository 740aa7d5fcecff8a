(* What a handle means: it has nothing, an object, or an object that was reset. *)
From Verif Require Import Base HoldModel.

Inductive handle := Nothing | Has (c : kind) (k : nat) | Spent (c : kind) (k : nat).

(* the number of objects made so far, and the handles; operations outside their precondition are not
   defined: no move onto itself, access only while there is an object, one reset of an object that is
   not on the heap *)
Definition sstep (n : nat) (hs : list handle) (o : op) : option (nat * list handle * ans) :=
  match o with
  | New => Some (n, hs ++ [Nothing], ANone)
  | Make c => Some (S n, hs ++ [Has c n], ANone)
  | MoveNew j => match nth_error hs j with
                 | Some h => Some (n, upd j Nothing hs ++ [h], ANone)
                 | None => None
                 end
  | Move i j => match nth_error hs i, nth_error hs j with
                | Some _, Some h => if i =? j then None else Some (n, upd j Nothing (upd i h hs), ANone)
                | _, _ => None
                end
  | Destroy i => if i <? length hs then Some (n, upd i Nothing hs, ANone) else None
  | Reset i => match nth_error hs i with
               | Some (Has Heap _) => None
               | Some (Has c k) => Some (n, upd i (Spent c k) hs, ANone)
               | _ => None
               end
  | Use i => match nth_error hs i with Some (Has _ k) => Some (n, hs, AObj k) | _ => None end
  | IsNull i => match nth_error hs i with
                | Some Nothing => Some (n, hs, ABool true)
                | Some _ => Some (n, hs, ABool false)
                | None => None
                end
  end.
Fixpoint srun (n : nat) (hs : list handle) (ops : list op) : option (nat * list handle * list ans) :=
  match ops with
  | [] => Some (n, hs, [])
  | o :: ops => match sstep n hs o with
                | Some (n, hs, a) => match srun n hs ops with
                                     | Some (n, hs, l) => Some (n, hs, a :: l)
                                     | None => None
                                     end
                | None => None
                end
  end.

(* the handle keeps memory k alive *)
Definition keeps (h : handle) (k : nat) : Prop := (exists c, h = Has c k) \/ h = Spent Mmap k.
(* memory k is released exactly if no handle keeps it *)
Definition exact (w : world) (hs : list handle) : Prop :=
  forall k c, nth_error (cells w) k = Some c -> (mem c = true <-> exists h, In h hs /\ keeps h k).
