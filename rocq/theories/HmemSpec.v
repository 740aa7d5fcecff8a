(* Several finite maps. Beside its entries, each knows whether it may hold memory: it does from an
   insertion on until it is cleared, moved from or destroyed. *)
From Verif Require Import Base HashModel HashSpec HmemModel.

Section Spec.
Variable K V : Type.
Variable keq : K -> K -> bool.
Variable dv : V.
Notation fmap := (fmap K V).

Definition holds (o : op K V) (b : bool) : bool :=
  match o with Emplace _ _ _ _ | Assign _ _ _ _ | Bracket _ _ _ | Rehash _ _ => true | Clear _ _ => false | _ => b end.
Definition copied (m : fmap) : fmap * bool := (m, match m with [] => false | _ => true end).

(* not defined: rehashing an empty map, moving into a map that may hold memory *)
Definition mspec_step (ms : list (fmap * bool)) (m : mop K V) : option (list (fmap * bool) * out K V) :=
  match m with
  | On _ (Copy _ _) => None
  | On r o =>
      match nth_error ms r with
      | Some (f, b) => match o, f with
                       | Rehash _ _, [] => None
                       | _, _ => let (f', x) := spec_step K V keq dv f o in Some (upd r (f', holds o b) ms, x)
                       end
      | None => None
      end
  | NewT => Some (ms ++ [([], false)], ONone K V)
  | CopyNew r => match nth_error ms r with Some (f, _) => Some (ms ++ [copied f], ONone K V) | None => None end
  | CopyTo r r' =>
      match nth_error ms r, nth_error ms r' with
      | Some _, Some (f, _) => Some (if r =? r' then ms else upd r (copied f) ms, ONone K V)
      | _, _ => None
      end
  | MoveNew r => match nth_error ms r with Some a => Some (upd r ([], false) ms ++ [a], ONone K V) | None => None end
  | MoveTo r r' =>
      match nth_error ms r, nth_error ms r' with
      | Some (_, b), Some a => if r =? r' then Some (ms, ONone K V)
                               else if b then None else Some (upd r' ([], false) (upd r a ms), ONone K V)
      | _, _ => None
      end
  | DestroyT r => match nth_error ms r with Some _ => Some (upd r ([], false) ms, ONone K V) | None => None end
  | Load r => match nth_error ms r with Some (f, _) => Some (ms ++ [(f, false)], ONone K V) | None => None end
  end.
Fixpoint mspec_run (ms : list (fmap * bool)) (l : list (mop K V)) : option (list (fmap * bool) * list (out K V)) :=
  match l with
  | [] => Some (ms, [])
  | m :: l => match mspec_step ms m with
              | Some (ms, x) => match mspec_run ms l with Some (ms, xs) => Some (ms, x :: xs) | None => None end
              | None => None
              end
  end.
Definition mins_of (m : mop K V) : nat := match m with On _ o => ins_of K V o | _ => 0 end.
Definition minserts (l : list (mop K V)) : nat := list_sum (map mins_of l).
End Spec.
(* number of blocks in use, number of maps that may hold memory *)
Definition in_use (bs : list bool) : nat := length (filter (fun b => b) bs).
Definition holders {A} (ms : list (A * bool)) : nat := in_use (map snd ms).
