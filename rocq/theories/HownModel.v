(* Arguments of a hash map's functions that refer to the map's own values, include/cista/containers/hash_storage.h.
   A reference to a value is the number of its slot (HashModel.v). It dangles after the entries have been moved to new
   memory (608-632 resize), which happens exactly when the capacity changes: growing doubles it (579-581). *)
From Verif Require Import Base HashModel.

Section Own.
Variable K V : Type.
Variable hash : K -> N.
Variable keq : K -> K -> bool.
Variable dv : V.
Variable max_cap : nat.
(* a value as a key: the identity if both types are the same, or a view of the value if the hash is transparent *)
Variable key_of : V -> K.

(* 317-324 bracket_operator_impl with a reference to the value in slot i as key: it is read by find_or_prepare_insert
   (535-550), and again when the new entry is constructed *)
Definition bracket_own (t : tbl K V) (i : nat) : res (tbl K V * nat) :=
  let* e := rd_ent K V t i in
  let* ' (u, s, ins) := find_or_prepare_insert K V hash keq max_cap t (key_of (snd e)) in
  if ins then
    if t_cap K V u =? t_cap K V t then
      let* e := rd_ent K V u i in
      let* u := set_ent K V u s (Some (key_of (snd e), dv)) in Ok (u, s)
    else UB
  else Ok (u, s).

Inductive own_op : Type :=
| NestOwn (k : K)          (* m[m.at(k)] *)
| AssignOwn (k k' : K)     (* m[k] = m.at(k'), for values of class type: the right side is evaluated first (C++17) to a
                              reference, which operator= reads *)
| EmplaceOwn (k k' : K)    (* m.emplace(k, m.at(k')) *)
| EraseOwn (k : K)         (* m.erase(m.at(k)) *).
Definition source (o : own_op) : K := match o with NestOwn k | AssignOwn _ k | EmplaceOwn _ k | EraseOwn k => k end.

(* 353-359 at, then the function *)
Definition own_step (t : tbl K V) (o : own_op) : res (tbl K V * out K V) :=
  let* r := find_ K V hash keq t (source o) in
  match r with
  | None => Ok (t, OOutOfRange K V)
  | Some i =>
      match o with
      | NestOwn _ => let* ' (u, s) := bracket_own t i in let* e := rd_ent K V u s in Ok (u, OVal K V (snd e))
      | AssignOwn k _ =>
          let* ' (u, s) := bracket K V hash keq dv max_cap t k in
          if t_cap K V u =? t_cap K V t then
            let* e := rd_ent K V u i in
            let* d := rd_ent K V u s in
            let* u := set_ent K V u s (Some (fst d, snd e)) in Ok (u, ONone K V)
          else UB
      | EmplaceOwn k _ =>    (* 441-449: the new entry is constructed before the map is looked at *)
          let* e := rd_ent K V t i in
          let* ' (u, s, ins) := emplace K V hash keq max_cap t (k, snd e) in
          let* e := rd_ent K V u s in Ok (u, OIns K V ins (snd e))
      | EraseOwn _ =>        (* 417-424, 434-437: the key is not read after the entry was found *)
          let* e := rd_ent K V t i in
          let* ' (u, n) := erase K V hash keq t (key_of (snd e)) in Ok (u, ONum K V (N.of_nat n))
      end
  end.
(* 409-414 m.insert(m.begin(), m.end()) with i = first; last is the end of the table that was given. Both dangle once
   the map has grown *)
Fixpoint insert_from (fuel : nat) (last : nat) (t : tbl K V) (i : nat) : res (tbl K V) :=
  match fuel with
  | O => Fuel
  | S f => if i =? last then Ok t else
           let* e := rd_ent K V t i in
           let* ' (u, _, _) := emplace K V hash keq max_cap t e in
           if t_cap K V u =? t_cap K V t then let* j := next_ K V u i in insert_from f last u j else UB
  end.
Definition insert_self (t : tbl K V) : res (tbl K V) := let* i := begin_ K V t in insert_from (S (t_cap K V t)) (t_cap K V t) t i.
(* programs that mix these calls with the other ones *)
Inductive call : Type := Plain (o : op K V) | Own (o : own_op).
Definition call_step (t : tbl K V) (c : call) : res (tbl K V * out K V) :=
  match c with Plain o => step K V hash keq dv max_cap t o | Own o => own_step t o end.
Fixpoint call_run (t : tbl K V) (cs : list call) : res (tbl K V * list (out K V)) :=
  match cs with
  | [] => Ok (t, [])
  | c :: cs => let* ' (t, x) := call_step t c in let* ' (t, xs) := call_run t cs in Ok (t, x :: xs)
  end.
End Own.
Arguments NestOwn {K}. Arguments AssignOwn {K}. Arguments EmplaceOwn {K}. Arguments EraseOwn {K}.
