(* Model of several hash tables and their memory: construction, copy, move, destruction and growth of
   include/cista/containers/hash_storage.h, on top of the operations of one table (HashModel.v).
   Heap blocks are numbered; one block holds the entries and control bytes of a table. The failing
   aligned_alloc of C50_failed_growth_refuted is [grow_fail]; otherwise allocations of up to max_cap
   entries succeed and larger ones throw, ending the history. *)
From Verif Require Import Base HashModel.

(* where entries_ points to: nowhere (with ctrl_ the static empty group), to a heap block, or into a
   buffer with serialized data *)
Inductive place := Nil | Own (k : nat) | Buf.

Section Hmem.
Variable K V : Type.
Variable hash : K -> N.
Variable keq : K -> K -> bool.
Variable dv : V.
Variable max_cap : nat.
Notation tbl := (tbl K V).
Notation empty_tbl := (empty_tbl K V).

(* 673-676: the table, where it is, self_allocated_ *)
Record htab := Ht { h_tbl : tbl; h_at : place; h_self : bool }.
Definition fresh : htab := Ht empty_tbl Nil false.
Record world := World { blocks : list bool; (* not yet freed *) tabs : list htab }.

(* CISTA_ALIGNED_FREE *)
Definition free (bs : list bool) (p : place) : res (list bool) :=
  match p with
  | Nil => Ok bs
  | Own k => match nth_error bs k with Some true => Ok (upd k false bs) | _ => UB end
  | Buf => UB
  end.
(* every access to entries needs their memory *)
Definition alive (bs : list bool) (h : htab) : res unit :=
  match h_at h with Own k => match nth_error bs k with Some true => Ok tt | _ => UB end | _ => Ok tt end.

(* 611-634 resize, seen from the memory: t is the table in its new block *)
Definition moved (bs : list bool) (h : htab) (t : tbl) : res (list bool * htab) :=
  let k := length bs in
  let* bs := if negb (t_cap K V (h_tbl h) =? 0) && h_self h then free (bs ++ [true]) (h_at h) else Ok (bs ++ [true]) in
  Ok (bs, Ht t (Own k) true).
(* an operation has changed the table to t: prepare_insert grows by changing the capacity (579-581) *)
Definition after (bs : list bool) (h : htab) (t : tbl) : res (list bool * htab) :=
  if t_cap K V t =? t_cap K V (h_tbl h) then Ok (bs, Ht t (h_at h) (h_self h)) else moved bs h t.
(* 517-533 clear, also 311 the destructor *)
Definition clear_b (bs : list bool) (h : htab) : res (list bool * htab) :=
  let* t := clear K V (h_tbl h) in
  if t_cap K V (h_tbl h) =? 0 then Ok (bs, h) else
  let* bs := if h_self h then free bs (h_at h) else Ok bs in
  Ok (bs, Ht t Nil (h_self h)).
(* for (auto const& v : other) emplace(v) *)
Fixpoint emplace_each (bs : list bool) (h : htab) (l : list (K * V)) : res (list bool * htab) :=
  match l with
  | [] => Ok (bs, h)
  | e :: l => let* r := emplace K V hash keq max_cap (h_tbl h) e in
              let* ' (bs, h) := after bs h (fst (fst r)) in
              emplace_each bs h l
  end.

Inductive mop : Type :=
| On (r : nat) (o : op K V)  (* an operation on table r *)
| NewT                       (* 259 *)
| CopyNew (r : nat)          (* 275-281 *)
| CopyTo (r r' : nat)        (* 297-309: r = r' *)
| MoveNew (r : nat)          (* 265-273 *)
| MoveTo (r r' : nat)        (* 283-295: r = move(r') *)
| DestroyT (r : nat)         (* 311; a new table takes its place *)
| Load (r : nat).            (* r serialized and deserialized in place, in a buffer of its own *)

Definition get (w : world) (r : nat) : res htab :=
  match nth_error (tabs w) r with Some h => let* _ := alive (blocks w) h in Ok h | None => UB end.
Definition contents (h : htab) : res (list (K * V)) :=
  if (t_size K V (h_tbl h) =? 0)%N then Ok [] else iterate K V (h_tbl h).

Definition mstep (w : world) (m : mop) : res (world * out K V) :=
  match m with
  | On r o =>
      let* h := get w r in
      let* ' (t, x) := step K V hash keq dv max_cap (h_tbl h) o in
      let* ' (bs, h) := match o with
                        | Clear _ _ => clear_b (blocks w) h
                        | Rehash _ _ => moved (blocks w) h t            (* 649 *)
                        | Copy _ _ => UB                               (* use CopyNew, CopyTo *)
                        | _ => after (blocks w) h t
                        end in
      Ok (World bs (upd r h (tabs w)), x)
  | NewT => Ok (World (blocks w) (tabs w ++ [fresh]), ONone K V)
  | CopyNew r =>
      let* h := get w r in
      let* l := contents h in
      let* ' (bs, c) := emplace_each (blocks w) fresh l in
      Ok (World bs (tabs w ++ [c]), ONone K V)
  | CopyTo r r' =>
      if r =? r' then let* _ := get w r in Ok (w, ONone K V) else
      let* h := get w r in
      let* h' := get w r' in
      let* ' (bs, h) := clear_b (blocks w) h in
      let* l := contents h' in
      let* ' (bs, h) := emplace_each bs h l in
      Ok (World bs (upd r h (tabs w)), ONone K V)
  | MoveNew r =>
      let* h := get w r in
      Ok (World (blocks w) (upd r fresh (tabs w) ++ [h]), ONone K V)
  | MoveTo r r' =>
      let* _ := get w r in
      let* h' := get w r' in
      if r =? r' then Ok (w, ONone K V) else
      Ok (World (blocks w) (upd r' fresh (upd r h' (tabs w))), ONone K V)
  | DestroyT r =>
      let* h := get w r in
      let* ' (bs, _) := clear_b (blocks w) h in
      Ok (World bs (upd r fresh (tabs w)), ONone K V)
  | Load r =>
      let* h := get w r in
      Ok (World (blocks w) (tabs w ++ [Ht (h_tbl h) Buf false]), ONone K V)
  end.
Fixpoint mrun (w : world) (ms : list mop) : res (world * list (out K V)) :=
  match ms with
  | [] => Ok (w, [])
  | m :: ms => let* ' (w, x) := mstep w m in let* ' (w, xs) := mrun w ms in Ok (w, x :: xs)
  end.

(* 611-618 with 592-600: resize when aligned_alloc answers nullptr; bad_alloc is thrown after capacity_,
   self_allocated_ and entries_ have been overwritten *)
Definition grow_fail (h : htab) (new_cap : nat) : htab :=
  Ht (Tbl K V [] (t_ctrl K V (h_tbl h)) (t_size K V (h_tbl h)) new_cap (t_growth K V (h_tbl h))) Nil true.
(* 521-526 the loop of clear on such a table: control bytes are read up to capacity_ *)
Fixpoint clear_from (t : tbl) (n i : nat) : res unit :=
  match n with
  | O => Ok tt
  | S n => let* c := rd_ctrl K V t i in
           let* _ := if is_full c then let* _ := rd_ent K V t i in Ok tt else Ok tt in
           clear_from t n (S i)
  end.
End Hmem.
Arguments On {K V}. Arguments NewT {K V}. Arguments CopyNew {K V}. Arguments CopyTo {K V}. Arguments MoveNew {K V}.
Arguments MoveTo {K V}. Arguments DestroyT {K V}. Arguments Load {K V}. Arguments World {K V}. Arguments blocks {K V}.
Arguments tabs {K V}. Arguments Ht {K V}. Arguments h_tbl {K V}. Arguments h_at {K V}. Arguments h_self {K V}.
