(* Model of changing a loaded object graph in place: the accessors that lead from the root to a member, and the assignment of
   integers, floating point numbers and pointers. *)
From Verif Require Import Base Bytes SerialModel ConvModel.
Local Open Scope Z_scope.

(* one accessor *)
Inductive step : Type :=
| Field (i : nat)    (* a member of a struct, pair, tuple or array *)
| Value              (* operator* of an optional *)
| Alt                (* get/as of the alternative a variant holds *)
| Deref              (* operator* of a unique_ptr *)
| Elem (i : nat)     (* operator[] of a vector *)
| Entry (i : nat).   (* the entry a hash table iterator points to: slot i *)

Inductive asg : Type :=
| SetInt (p : list step) (x : N)
| SetRaw (p : list step) (l : list N)           (* floating point numbers, enums: their bytes *)
| SetPtr (p : list step) (q : option Z).        (* a pointer that owns nothing *)

Section Mut.
Variable env : list ty.
Variable hb : bool.      (* byte order of the host *)
Variable raw : bool.     (* raw pointers, otherwise offset_ptr *)

(* the owning pointer at a: el_ resp. offset_ptr.h:70-76 get *)
Definition own_ptr (m : mem) (a : Z) : res Z :=
  let* l := dbytes m a 8 in
  match ptr_of (negb raw) a (to_int hb l) with Some q => Ok q | None => UB end.
(* the lvalue an access path names: type and address. optional.h:69-78 (no check whether there is a value), variant.h:338-341 and 383-386
   (UB here: an alternative that is not held), unique_ptr.h:71-72, vector.h:142-149 (no bounds check), hash_storage.h:155-156. *)
Fixpoint place (m : mem) (t : ty) (a : Z) (p : list step) {struct p} : res (ty * Z) :=
  match p with
  | [] => Ok (t, a)
  | s :: p =>
    match t, s with
    | TAgg fs _ _, Field i => match nth_error fs i with Some (o, t) => place m t (a + o) p | None => UB end
    | TOpt t off _ _, Value => place m t (a + off) p
    | TVar ts off _ _, Alt =>
        let* i := dint hb m a 1 in
        match nth_error ts (Z.to_nat i) with Some t => place m t (a + off) p | None => UB end
    | TUniq n, Deref => let* q := own_ptr m a in place m (tyof env n) q p
    | TVec _ _ n, Elem i | THash n, Entry i =>
        let* q := own_ptr m a in place m (tyof env n) (q + Z.of_nat i * size_of (tyof env n)) p
    | _, _ => UB
    end
  end.
(* the word of a pointer to q stored at slot: offset_ptr.h:57-60, 33-37 *)
Definition ptr_word (slot : Z) (q : option Z) : N :=
  match q with
  | None => if raw then 0%N else u_of_z NULLPTR_OFFSET
  | Some q => u_of_z (if raw then q else q - slot)
  end.
Definition assign (m : mem) (t : ty) (a : Z) (o : asg) : res mem :=
  match o with
  | SetInt p x =>
      let* ' (T, b) := place m t a p in
      match T with TInt w => Ok (put_mem m b (of_int hb w x)) | _ => UB end
  | SetRaw p l =>
      let* ' (T, b) := place m t a p in
      match T with TRaw w => if (length l =? w)%nat then Ok (put_mem m b l) else UB | _ => UB end
  | SetPtr p q =>
      let* ' (T, b) := place m t a p in
      match T with TPtr _ => Ok (put_mem m b (of_int hb 8 (ptr_word b q))) | _ => UB end
  end.
Fixpoint assign_all (m : mem) (t : ty) (a : Z) (l : list asg) : res mem :=
  match l with [] => Ok m | o :: l => let* m := assign m t a o in assign_all m t a l end.
End Mut.
