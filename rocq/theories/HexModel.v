(* Model of include/cista/containers/hash_storage.h when the code of the user throws: the constructors of entries, Hash{} and Eq{}.
   HashModel has the same functions without exceptions. Each call of such code takes the next tick; an oracle says which calls throw.
   Destructors do not throw. Simplification: the memory blocks are left out (HmemModel has them). *)
From Verif Require Import Base Bytes ArithModel HashModel.

Section Hex.
Variable K V : Type.
Variable hash : K -> N.
Variable keq : K -> K -> bool.
Variable dv : V.
Variable max_cap : nat.
Notation tbl := (tbl K V).

Inductive event : Type :=
| EMake            (* auto entry = T{args...}; 443 *)
| EHash (k : K)    (* compute_hash(k) *)
| EEq              (* Eq{}(...) *)
| EPlace           (* the placement new of a new entry; 321, 446 *)
| EMove.           (* the placement new of a moved entry; 628 *)
Variable fault : nat -> event -> bool.

(* the next tick and the result; or an exception and the table it leaves behind; or something undefined (or endless) *)
Inductive xres (A : Type) : Type := XOk (n : nat) (a : A) | XThrow (n : nat) (t : tbl) | XBad.
Arguments XOk {A}. Arguments XThrow {A}. Arguments XBad {A}.
Definition xbind {A B} (r : xres A) (f : nat -> A -> xres B) : xres B :=
  match r with XOk n a => f n a | XThrow n t => XThrow n t | XBad => XBad end.
(* code that cannot throw *)
Definition lift {A} (n : nat) (r : res A) : xres A := match r with Ok a => XOk n a | _ => XBad end.
(* one call of code of the user, with table t at that moment *)
Definition call (n : nat) (e : event) (t : tbl) : xres unit := if fault n e then XThrow (S n) t else XOk (S n) tt.

(* the inner loop of 383-387, 541-545 *)
Fixpoint try_matches_x (n : nat) (t : tbl) (k : K) (o : nat) (l : list nat) : xres (option nat) :=
  match l with
  | [] => XOk n None
  | i :: l =>
      let s := probe_offset (t_cap _ _ t) o i in
      match nth_error (t_ent _ _ t) s with
      | Some (Some e) => xbind (call n EEq t) (fun n _ => if keq (fst e) k then XOk n (Some s) else try_matches_x n t k o l)
      | _ => XBad
      end
  end.
(* 379-393, 537-550 *)
Fixpoint find_loop_x (fuel : nat) (n : nat) (t : tbl) (k : K) (h : N) (s : nat * nat) : xres (option nat) :=
  match fuel with
  | O => XBad
  | S f =>
      xbind (lift n (group (t_ctrl _ _ t) (fst s))) (fun n g =>
      xbind (try_matches_x n t k (fst s) (bm_positions (match_ g (h2 h)))) (fun n r =>
      match r with
      | Some i => XOk n (Some i)
      | None => if (match_empty g =? 0)%N then find_loop_x f n t k h (probe_next (t_cap _ _ t) s) else XOk n None
      end))
  end.
Definition find_x (n : nat) (t : tbl) (k : K) : xres (option nat) :=
  xbind (call n (EHash k) t) (fun n _ => find_loop_x (S (t_cap _ _ t)) n t k (hash k) (probe_start (hash k) (t_cap _ _ t), 0)).

(* 621-631 the loop of resize; size_, capacity_ and growth_left_ are already the new ones. The control byte is set before the entry is
   moved. *)
Fixpoint resize_loop_x (n : nat) (size : N) (cap : nat) (growth : N) (old : list (N * option (K * V)))
  (ctrl : list N) (ent : list (option (K * V))) : xres (list N * list (option (K * V))) :=
  match old with
  | [] => XOk n (ctrl, ent)
  | (c, x) :: old =>
      if is_full c then
        match x with
        | None => XBad
        | Some e =>
            xbind (call n (EHash (fst e)) (Tbl _ _ ent ctrl size cap growth)) (fun n _ =>
            xbind (lift n (find_first_non_full ctrl cap (hash (fst e)))) (fun n i =>
            xbind (lift n (set_ctrl ctrl cap i (h2 (hash (fst e))))) (fun n ctrl =>
            xbind (call n EMove (Tbl _ _ ent ctrl size cap growth)) (fun n _ =>
            xbind (lift n (put_ent _ _ ent i (Some e))) (fun n ent =>
            resize_loop_x n size cap growth old ctrl ent)))))
        end
      else resize_loop_x n size cap growth old ctrl ent
  end.
(* 611-635; 592-600: bad_alloc comes after capacity_ and entries_ were overwritten *)
Definition resize_x (n : nat) (t : tbl) (new_cap : nat) : xres tbl :=
  if max_cap <? new_cap then XThrow n (Tbl _ _ [] (t_ctrl _ _ t) (t_size _ _ t) new_cap (t_growth _ _ t)) else
  let growth := sub64 (N.of_nat (capacity_to_growth new_cap)) (t_size _ _ t) in
  xbind (resize_loop_x n (t_size _ _ t) new_cap growth (combine (firstn (t_cap _ _ t) (t_ctrl _ _ t)) (t_ent _ _ t))
           (reset_ctrl new_cap) (repeat None new_cap)) (fun n r =>
  XOk n (Tbl _ _ (snd r) (fst r) (t_size _ _ t) new_cap growth)).
(* 563-573 *)
Definition prepare_insert_x (n : nat) (t : tbl) (h : N) : xres (tbl * nat) :=
  xbind (lift n (find_first_non_full (t_ctrl _ _ t) (t_cap _ _ t) h)) (fun n target =>
  xbind (lift n (rd_ctrl _ _ t target)) (fun n c =>
  xbind (if ((t_growth _ _ t =? 0)%N && negb (is_deleted c))%bool then
           xbind (resize_x n t (if t_cap _ _ t =? 0 then 1 else t_cap _ _ t * 2 + 1)) (fun n t =>
           xbind (lift n (find_first_non_full (t_ctrl _ _ t) (t_cap _ _ t) h)) (fun n target => XOk n (t, target)))
         else XOk n (t, target)) (fun n r =>
  let (t, target) := (r : tbl * nat) in
  xbind (lift n (rd_ctrl _ _ t target)) (fun n c =>
  xbind (lift n (set_ctrl (t_ctrl _ _ t) (t_cap _ _ t) target (h2 h))) (fun n ctrl =>
  XOk n (Tbl _ _ (t_ent _ _ t) ctrl (add64 (t_size _ _ t) 1) (t_cap _ _ t) (sub64 (t_growth _ _ t) (if is_empty c then 1 else 0)), target)))))).
(* 536-552 *)
Definition find_or_prepare_insert_x (n : nat) (t : tbl) (k : K) : xres (tbl * nat * bool) :=
  xbind (find_x n t k) (fun n r =>
  match r with
  | Some i => XOk n (t, i, false)
  | None => xbind (prepare_insert_x n t (hash k)) (fun n r => XOk n (fst r, snd r, true))
  end).
(* new (entries_ + i) T{...}: 320-322, 445-447 *)
Definition place_x (n : nat) (r : tbl * nat * bool) (e : K * V) : xres (tbl * nat * bool) :=
  let '(t, i, ins) := r in
  if ins : bool then xbind (call n EPlace t) (fun n _ => xbind (lift n (set_ent _ _ t i (Some e))) (fun n t => XOk n (t, i, true)))
  else XOk n (t, i, false).
(* 441-450 *)
Definition emplace_x (n : nat) (t : tbl) (e : K * V) : xres (tbl * nat * bool) :=
  xbind (call n EMake t) (fun n _ => xbind (find_or_prepare_insert_x n t (fst e)) (fun n r => place_x n r e)).
(* 317-325 *)
Definition bracket_x (n : nat) (t : tbl) (k : K) : xres (tbl * nat) :=
  xbind (find_or_prepare_insert_x n t k) (fun n r => xbind (place_x n r (k, dv)) (fun n r => XOk n (fst (fst r), snd (fst r)))).
(* 416-426 *)
Definition erase_x (n : nat) (t : tbl) (k : K) : xres (tbl * nat) :=
  xbind (find_x n t k) (fun n r =>
  match r with
  | None => XOk n (t, 0)
  | Some i => xbind (lift n (erase_at _ _ t i)) (fun n t => XOk n (t, 1))
  end).
Fixpoint emplace_all_x (n : nat) (t : tbl) (l : list (K * V)) : xres tbl :=
  match l with
  | [] => XOk n t
  | e :: l => xbind (emplace_x n t e) (fun n r => emplace_all_x n (fst (fst r)) l)
  end.
(* m = hash_map(m): 275-281 into a new map, which an exception abandons; then 283-295 *)
Definition copy_x (n : nat) (t : tbl) : xres tbl :=
  if (t_size _ _ t =? 0)%N then XOk n (empty_tbl _ _) else
  xbind (lift n (iterate _ _ t)) (fun n l =>
  match emplace_all_x n (empty_tbl _ _) l with XThrow n _ => XThrow n t | r => r end).

(* as HashModel.step. m[k] = v: Simplification: the assignment to the value does not throw. *)
Definition step_x (n : nat) (t : tbl) (o : op K V) : xres (tbl * out K V) :=
  match o with
  | Emplace _ _ k v => xbind (emplace_x n t (k, v)) (fun n r =>
      xbind (lift n (rd_ent _ _ (fst (fst r)) (snd (fst r)))) (fun n e => XOk n (fst (fst r), OIns _ _ (snd r) (snd e))))
  | Assign _ _ k v => xbind (bracket_x n t k) (fun n r =>
      xbind (lift n (rd_ent _ _ (fst r) (snd r))) (fun n e =>
      xbind (lift n (set_ent _ _ (fst r) (snd r) (Some (fst e, v)))) (fun n t => XOk n (t, ONone _ _))))
  | Bracket _ _ k => xbind (bracket_x n t k) (fun n r =>
      xbind (lift n (rd_ent _ _ (fst r) (snd r))) (fun n e => XOk n (fst r, OVal _ _ (snd e))))
  | Find _ _ k => xbind (find_x n t k) (fun n r =>
      match r with
      | None => XOk n (t, OEntry _ _ None)
      | Some i => xbind (lift n (rd_ent _ _ t i)) (fun n e => XOk n (t, OEntry _ _ (Some e)))
      end)
  | At _ _ k => xbind (find_x n t k) (fun n r =>
      match r with
      | None => XOk n (t, OOutOfRange _ _)
      | Some i => xbind (lift n (rd_ent _ _ t i)) (fun n e => XOk n (t, OVal _ _ (snd e)))
      end)
  | Get _ _ k => xbind (find_x n t k) (fun n r =>
      match r with
      | None => XOk n (t, OOpt _ _ None)
      | Some i => xbind (lift n (rd_ent _ _ t i)) (fun n e => XOk n (t, OOpt _ _ (Some (snd e))))
      end)
  | Erase _ _ k => xbind (erase_x n t k) (fun n r => XOk n (fst r, ONum _ _ (N.of_nat (snd r))))
  | Clear _ _ => xbind (lift n (clear _ _ t)) (fun n t => XOk n (t, ONone _ _))
  | Rehash _ _ => xbind (resize_x n t (t_cap _ _ t)) (fun n t => XOk n (t, ONone _ _))
  | Size _ _ => XOk n (t, ONum _ _ (t_size _ _ t))
  | Iterate _ _ => xbind (lift n (iterate _ _ t)) (fun n l => XOk n (t, OList _ _ l))
  | Copy _ _ => xbind (copy_x n t) (fun n t => XOk n (t, ONone _ _))
  end.
(* the program catches every exception and goes on; None: the operation has thrown *)
Fixpoint run_x (n : nat) (t : tbl) (ops : list (op K V)) : option (tbl * list (option (out K V))) :=
  match ops with
  | [] => Some (t, [])
  | o :: ops =>
      match step_x n t o with
      | XOk n (t, x) => match run_x n t ops with Some (t, xs) => Some (t, Some x :: xs) | None => None end
      | XThrow n t => match run_x n t ops with Some (t, xs) => Some (t, None :: xs) | None => None end
      | XBad => None
      end
  end.
End Hex.
Arguments XOk {K V A}. Arguments XThrow {K V A}. Arguments XBad {K V A}.
Arguments EMake {K}. Arguments EHash {K}. Arguments EEq {K}. Arguments EPlace {K}. Arguments EMove {K}.
