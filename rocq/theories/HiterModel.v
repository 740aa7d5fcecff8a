(* Erasing from a hash table while iterating over it, include/cista/containers/hash_storage.h:
   for (auto it = m.begin(); it != m.end(); ++it) { if (p( *it)) { m.erase(it); } }
   An iterator is the number of its slot (HashModel.v): erase(iterator) does not move entries, and
   operator++ only looks at the control bytes behind it. *)
From Verif Require Import Base HashModel.

Section Iter.
Variable K V : Type.
Variable p : K * V -> bool.

(* 451-458 begin, end; 157-162 operator++; 434-437 erase(iterator) *)
Fixpoint erase_from (fuel : nat) (t : tbl K V) (i : nat) : res (tbl K V) :=
  match fuel with
  | O => Fuel
  | S f => if i =? t_cap K V t then Ok t else
           let* e := rd_ent K V t i in
           let* t := if p e then erase_at K V t i else Ok t in
           let* j := next_ K V t i in
           erase_from f t j
  end.
Definition erase_if (t : tbl K V) : res (tbl K V) :=
  let* i := begin_ K V t in erase_from (S (t_cap K V t)) t i.
End Iter.
