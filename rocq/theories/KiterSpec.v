(* What iterators over the keys of a map mean: positions in the list of keys, from 0 (begin) to its length (end). An
   operation that leaves this range, or reads at the end, is outside the precondition. *)
From Coq Require Import ZArith.
From Verif Require Import Base FlatModel FlatSpec KiterModel.

Section Spec.
Variable B : Type.
Variable l : list B.                                   (* what the keys map to *)

(* a position *)
Definition pos (z : Z) : option nat := if ((0 <=? z) && (z <=? Z.of_nat (length l)))%Z then Some (Z.to_nat z) else None.
Definition move (vs : list nat) (r : nat) (n : Z) (new : nat -> list nat) : option (list nat * kout B) :=
  match nth_error vs r with
  | Some k => match pos (Z.of_nat k + n) with Some p => Some (upd r p vs ++ new k, KNone B) | None => None end
  | None => None
  end.
Definition make (vs : list nat) (z : Z) : option (list nat * kout B) :=
  match pos z with Some p => Some (vs ++ [p], KNone B) | None => None end.
Definition means_cmp (c : rel) (i j : nat) : bool :=
  match c with Lt => i <? j | Le => i <=? j | Gt => j <? i | Ge => j <=? i | Eq => i =? j | Ne => negb (i =? j) end.
Definition read (vs : list nat) (z : Z) : option (list nat * kout B) :=
  match pos z with
  | Some p => match nth_error l p with Some x => Some (vs, KVal B x) | None => None end
  | None => None
  end.
Definition k_spec (vs : list nat) (o : kop) : option (list nat * kout B) :=
  match o with
  | KBegin => make vs 0
  | KEnd => make vs (Z.of_nat (length l))
  | KInc r => move vs r 1 (fun _ => [])
  | KDec r => move vs r (-1) (fun _ => [])
  | KPostInc r => move vs r 1 (fun k => [k])
  | KPostDec r => move vs r (-1) (fun k => [k])
  | KAdd r n => move vs r n (fun _ => [])
  | KSub r n => move vs r (- n) (fun _ => [])
  | KPlus r n => match nth_error vs r with Some k => make vs (Z.of_nat k + n) | None => None end
  | KMinus r n => match nth_error vs r with Some k => make vs (Z.of_nat k - n) | None => None end
  | KDiff r s => match nth_error vs r, nth_error vs s with
      | Some j, Some k => Some (vs, KNum B (Z.of_nat j - Z.of_nat k)) | _, _ => None end
  | KCmp c r s => match nth_error vs r, nth_error vs s with
      | Some j, Some k => Some (vs, KBool B (means_cmp c j k)) | _, _ => None end
  | KRead r => match nth_error vs r with Some k => read vs (Z.of_nat k) | None => None end
  | KAt r n => match nth_error vs r with Some k => read vs (Z.of_nat k + n) | None => None end
  end.
Fixpoint k_means (vs : list nat) (ops : list kop) : option (list (kout B)) :=
  match ops with
  | [] => Some []
  | o :: ops => match k_spec vs o with
      | Some (vs, x) => match k_means vs ops with Some xs => Some (x :: xs) | None => None end
      | None => None
      end
  end.
End Spec.
(* the operations that exist: fws_multimap has no it++ and it--, and its it[n] does not compile *)
Definition exists_op (kd : kind) (o : kop) : bool :=
  match kd, o with Fws, KPostInc _ | Fws, KPostDec _ | Fws, KAt _ _ => false | _, _ => true end.
(* the ones among them that are not wrong: fws_multimap's it - n and mutable_fws_multimap's --it and it-- are
   (C67_fws_minus_refuted, C67_multimap_decrement_refuted) *)
Definition sound (kd : kind) (o : kop) : bool :=
  exists_op kd o && match kd, o with Fws, KMinus _ _ | Mut, KDec _ | Mut, KPostDec _ => false | _, _ => true end.
(* the calls that the wrong ones amount to *)
Definition forwards (kd : kind) (o : kop) : kop :=
  match kd, o with Fws, KMinus r n => KPlus r n | Mut, KDec r => KInc r | Mut, KPostDec r => KPostInc r | _, _ => o end.
