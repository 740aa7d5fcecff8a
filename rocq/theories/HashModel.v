(* Model of include/cista/containers/hash_storage.h (hash_map and hash_set).
   Control bytes are kept as unsigned bytes: EMPTY 0x80, DELETED 0xFE, END 0xFF,
   a full slot holds the 7-bit h2 of its key.
   The entry type is K * V (hash_set: V = unit). hash, equality and the default
   value are parameters. *)
From Verif Require Import Base Bytes ArithModel.

(* hash_storage.h:48 *)
Definition WIDTH : nat := 8.
(* hash_storage.h:60-64 *)
Definition EMPTY : N := 128%N.
Definition DELETED : N := 254%N.
Definition END : N := 255%N.

(* hash_storage.h:233-240, on the unsigned byte: c >= 0 as int8_t, c < END *)
Definition is_empty (c : N) : bool := (c =? EMPTY)%N.
Definition is_full (c : N) : bool := (c <? 128)%N.
Definition is_deleted (c : N) : bool := (c =? DELETED)%N.
Definition is_empty_or_deleted (c : N) : bool := ((128 <=? c) && (c <? END))%N.

(* ---- bit_mask, hash_storage.h:84-116 ---- *)
(* 98-100 trailing_zeros, also operator* 94 *)
Definition bm_trailing (mask : N) : nat := N.to_nat (N.shiftr (trailing_zeros 64 mask) 3).
(* 102-106: total_significant_bits = 64, extra_bits = 0 *)
Definition bm_leading (mask : N) : nat := N.to_nat (N.shiftr (leading_zeros 64 mask) 3).
(* range-for over the mask: *it, then ++it (89-92: mask &= mask - 1). A 64-bit
   mask has at most 64 set bits. *)
Fixpoint bm_list (fuel : nat) (mask : N) : list nat :=
  match fuel with
  | O => []
  | S f => if (mask =? 0)%N then []
           else bm_trailing mask :: bm_list f (N.land mask (sub64 mask 1))
  end.
Definition bm_positions (mask : N) : list nat := bm_list 64 mask.

(* ---- group, hash_storage.h:118-144 ---- *)
Definition MSBS : N := 9259542123273814144%N.   (* 0x8080808080808080 *)
Definition LSBS : N := 72340172838076673%N.     (* 0x0101010101010101 *)
Definition GAPS : N := 71775015237779198%N.     (* 0x00FEFEFEFEFEFEFE *)
(* 123-128: memcpy of 8 control bytes, little-endian value on every host *)
Definition group (ctrl : list N) (pos : nat) : res N :=
  match get pos WIDTH ctrl with Some l => Ok (le_dec l) | None => UB end.
(* 129-132 *)
Definition match_ (g h2 : N) : N :=
  let x := N.lxor g (mul64 LSBS h2) in
  N.land (N.land (sub64 x LSBS) (not64 x)) MSBS.
(* 133-135 *)
Definition match_empty (g : N) : N := N.land (N.land g (shl64 (not64 g) 6)) MSBS.
(* 136-138 *)
Definition match_empty_or_deleted (g : N) : N := N.land (N.land g (shl64 (not64 g) 7)) MSBS.
(* 139-142 *)
Definition count_leading_empty_or_deleted (g : N) : nat :=
  N.to_nat (N.shiftr
    (trailing_zeros 64 (add64 (N.lor (N.land (not64 g) (shr64 g 7)) GAPS) 1) + 7) 3).

(* ---- probe_seq, hash_storage.h:70-82 ---- *)
(* a & mask on size_type *)
Definition landn (a mask : nat) : nat := N.to_nat (N.land (N.of_nat a) (N.of_nat mask)).
(* 246-248 *)
Definition h1 (hash : N) : N := N.lxor (shr64 hash 7) 16777619.
(* 250-252 *)
Definition h2 (hash : N) : N := N.land hash 127.
(* 71-72: constructor *)
Definition probe_start (hash : N) (cap : nat) : nat := N.to_nat (N.land (h1 hash) (N.of_nat cap)).
(* 76-80: next *)
Definition probe_next (cap : nat) (s : nat * nat) : nat * nat :=
  let index := snd s + WIDTH in
  (landn (fst s + index) cap, index).
(* 73-75 *)
Definition probe_offset (cap o i : nat) : nat := landn (o + i) cap.

(* 254-257 *)
Definition capacity_to_growth (c : nat) : nat := if c =? 7 then 6 else c - c / 8.

(* (i - WIDTH) & capacity_: size_type arithmetic wraps *)
Definition before (i cap : nat) : nat :=
  N.to_nat (N.land (sub64 (N.of_nat i) 8) (N.of_nat cap)).

(* 226-231 *)
Definition empty_group : list N :=
  [END; EMPTY; EMPTY; EMPTY; EMPTY; EMPTY; EMPTY; EMPTY;
   EMPTY; EMPTY; EMPTY; EMPTY; EMPTY; EMPTY; EMPTY; EMPTY].

Section Table.
Variable K V : Type.
Variable hash : K -> N.              (* Hash{} (hash_t) *)
Variable keq : K -> K -> bool.       (* Eq{} *)
Variable dv : V.                     (* mapped_type{} *)
(* Simplification: an allocation of [cap] entries fails (bad_alloc, modelled as
   Throw) exactly if cap > max_cap; sizes below that do not wrap. *)
Variable max_cap : nat.

(* members 671-674; t_ent i = None: no live object in the i-th entry. *)
Record tbl := Tbl {
  t_ent : list (option (K * V));
  t_ctrl : list N;
  t_size : N;
  t_cap : nat;
  t_growth : N;
}.

(* 259 *)
Definition empty_tbl : tbl := Tbl [] empty_group 0 0 0.

(* for (i : g.match(h2)) if (Eq{}(GetKey()(entries_[seq.offset(i)]), key)) *)
Fixpoint try_matches (t : tbl) (k : K) (o : nat) (l : list nat) : res (option nat) :=
  match l with
  | [] => Ok None
  | i :: l =>
      let s := probe_offset (t_cap t) o i in
      match nth_error (t_ent t) s with
      | Some (Some e) => if keq (fst e) k then Ok (Some s) else try_matches t k o l
      | _ => UB
      end
  end.

(* 377-391 find_impl and the loop of find_or_prepare_insert 535-548;
   None: not found. [s] = (seq.offset_, seq.index_). *)
Fixpoint find_loop (fuel : nat) (t : tbl) (k : K) (h : N) (s : nat * nat) : res (option nat) :=
  match fuel with
  | O => Fuel
  | S f =>
      let* g := group (t_ctrl t) (fst s) in
      let* r := try_matches t k (fst s) (bm_positions (match_ g (h2 h))) in
      match r with
      | Some i => Ok (Some i)
      | None => if (match_empty g =? 0)%N
                then find_loop f t k h (probe_next (t_cap t) s)
                else Ok None
      end
  end.
(* Any fuel would do; the loop in the code is unbounded. *)
Definition find_ (t : tbl) (k : K) : res (option nat) :=
  find_loop (S (t_cap t)) t k (hash k) (probe_start (hash k) (t_cap t), 0).

(* 552-559 *)
Fixpoint find_first_loop (fuel : nat) (ctrl : list N) (cap : nat) (s : nat * nat) : res nat :=
  match fuel with
  | O => Fuel
  | S f =>
      let* g := group ctrl (fst s) in
      let mask := match_empty_or_deleted g in
      if (mask =? 0)%N then find_first_loop f ctrl cap (probe_next cap s)
      else Ok (probe_offset cap (fst s) (bm_trailing mask))
  end.
Definition find_first_non_full (ctrl : list N) (cap : nat) (h : N) : res nat :=
  find_first_loop (S cap) ctrl cap (probe_start h cap, 0).

(* 573-577 *)
Definition set_ctrl (ctrl : list N) (cap i : nat) (c : N) : res (list N) :=
  let j := before i cap + 1 + landn 7 cap in
  if ((i <? length ctrl) && (j <? length ctrl))%bool
  then Ok (upd j c (upd i c ctrl)) else UB.

(* placement new / destructor call on entries_[i] *)
Definition put_ent (ent : list (option (K * V))) (i : nat) (x : option (K * V))
  : res (list (option (K * V))) :=
  if i <? length ent then Ok (upd i x ent) else UB.

(* 587-590 *)
Definition reset_ctrl (cap : nat) : list N := upd cap END (repeat EMPTY (cap + WIDTH + 1)).

(* 619-628: the move loop of resize, over the old slots from index i on *)
Fixpoint resize_loop (cap : nat) (old : list (N * option (K * V)))
  (ctrl : list N) (ent : list (option (K * V))) : res (list N * list (option (K * V))) :=
  match old with
  | [] => Ok (ctrl, ent)
  | (c, x) :: old =>
      if is_full c then
        match x with
        | None => UB
        | Some e =>
            let h := hash (fst e) in
            let* i := find_first_non_full ctrl cap h in
            let* ctrl := set_ctrl ctrl cap i (h2 h) in
            let* ent := put_ent ent i (Some e) in
            resize_loop cap old ctrl ent
        end
      else resize_loop cap old ctrl ent
  end.

(* 609-633, with initialize_entries 592-607 and reset_growth_left 583-585 *)
Definition resize (t : tbl) (new_cap : nat) : res tbl :=
  if (max_cap <? new_cap) then Throw else
  let growth := sub64 (N.of_nat (capacity_to_growth new_cap)) (t_size t) in
  let* ' (ctrl, ent) :=
    resize_loop new_cap (combine (firstn (t_cap t) (t_ctrl t)) (t_ent t))
      (reset_ctrl new_cap) (repeat None new_cap) in
  Ok (Tbl ent ctrl (t_size t) new_cap growth).

(* 579-581 *)
Definition rehash_and_grow_if_necessary (t : tbl) : res tbl :=
  resize t (if t_cap t =? 0 then 1 else t_cap t * 2 + 1).
(* 649 *)
Definition rehash (t : tbl) : res tbl := resize t (t_cap t).

Definition rd_ctrl (t : tbl) (i : nat) : res N :=
  match nth_error (t_ctrl t) i with Some c => Ok c | None => UB end.

(* 561-571 *)
Definition prepare_insert (t : tbl) (h : N) : res (tbl * nat) :=
  let* target := find_first_non_full (t_ctrl t) (t_cap t) h in
  let* c := rd_ctrl t target in
  let* ' (t, target) :=
    if ((t_growth t =? 0)%N && negb (is_deleted c))%bool then
      let* t := rehash_and_grow_if_necessary t in
      let* target := find_first_non_full (t_ctrl t) (t_cap t) h in
      Ok (t, target)
    else Ok (t, target) in
  let* c := rd_ctrl t target in
  let* ctrl := set_ctrl (t_ctrl t) (t_cap t) target (h2 h) in
  Ok (Tbl (t_ent t) ctrl (add64 (t_size t) 1) (t_cap t)
          (sub64 (t_growth t) (if is_empty c then 1 else 0)), target).

(* 535-550 *)
Definition find_or_prepare_insert (t : tbl) (k : K) : res (tbl * nat * bool) :=
  let* r := find_ t k in
  match r with
  | Some i => Ok (t, i, false)
  | None => let* ' (t, i) := prepare_insert t (hash k) in Ok (t, i, true)
  end.

Definition set_ent (t : tbl) (i : nat) (x : option (K * V)) : res tbl :=
  let* ent := put_ent (t_ent t) i x in
  Ok (Tbl ent (t_ctrl t) (t_size t) (t_cap t) (t_growth t)).

Definition rd_ent (t : tbl) (i : nat) : res (K * V) :=
  match nth_error (t_ent t) i with Some (Some e) => Ok e | _ => UB end.

(* 441-449 emplace, 439 insert; returns the slot of the iterator and the flag *)
Definition emplace (t : tbl) (e : K * V) : res (tbl * nat * bool) :=
  let* ' (t, i, ins) := find_or_prepare_insert t (fst e) in
  if ins then let* t := set_ent t i (Some e) in Ok (t, i, true) else Ok (t, i, false).

(* 317-324 bracket_operator_impl; returns the slot of the referenced value *)
Definition bracket (t : tbl) (k : K) : res (tbl * nat) :=
  let* ' (t, i, ins) := find_or_prepare_insert t k in
  if ins then let* t := set_ent t i (Some (k, dv)) in Ok (t, i) else Ok (t, i).

(* 498-507 was_never_full *)
Definition was_never_full (t : tbl) (i : nat) : res bool :=
  let* ga := group (t_ctrl t) i in
  let* gb := group (t_ctrl t) (before i (t_cap t)) in
  let empty_after := match_empty ga in
  let empty_before := match_empty gb in
  Ok (negb (empty_before =? 0)%N && negb (empty_after =? 0)%N &&
      (bm_trailing empty_after + bm_leading empty_before <? WIDTH))%bool.

(* 509-515 erase_meta_only *)
Definition erase_meta_only (t : tbl) (i : nat) : res tbl :=
  let* wnf := was_never_full t i in
  let* ctrl := set_ctrl (t_ctrl t) (t_cap t) i (if wnf then EMPTY else DELETED) in
  Ok (Tbl (t_ent t) ctrl (sub64 (t_size t) 1) (t_cap t)
          (add64 (t_growth t) (if wnf then 1 else 0))).

(* 434-437 erase(iterator) *)
Definition erase_at (t : tbl) (i : nat) : res tbl :=
  let* _ := rd_ent t i in
  let* t := set_ent t i None in
  erase_meta_only t i.

(* 416-424 erase(key) *)
Definition erase (t : tbl) (k : K) : res (tbl * nat) :=
  let* r := find_ t k in
  match r with
  | None => Ok (t, 0)
  | Some i => let* t := erase_at t i in Ok (t, 1)
  end.

(* 517-533 clear, 635-641 partial_reset: destroys every full entry *)
Fixpoint destroy_all (l : list (N * option (K * V))) : res unit :=
  match l with
  | [] => Ok tt
  | (c, x) :: l => if is_full c then match x with None => UB | Some _ => destroy_all l end
                   else destroy_all l
  end.
Definition clear (t : tbl) : res tbl :=
  if t_cap t =? 0 then Ok t else
  let* _ := destroy_all (combine (firstn (t_cap t) (t_ctrl t)) (t_ent t)) in
  Ok empty_tbl.

(* 180-186 skip_empty_or_deleted; i = distance of the iterator from ctrl_ *)
Fixpoint skip (fuel : nat) (t : tbl) (i : nat) : res nat :=
  match fuel with
  | O => Fuel
  | S f =>
      let* c := rd_ctrl t i in
      if is_empty_or_deleted c then
        let* g := group (t_ctrl t) i in
        skip f t (i + count_leading_empty_or_deleted g)
      else Ok i
  end.
(* 451-457 begin *)
Definition begin_ (t : tbl) : res nat := skip (S (t_cap t)) t 0.
(* 157-162 operator++ *)
Definition next_ (t : tbl) (i : nat) : res nat := skip (S (t_cap t)) t (i + 1).
(* for (it = begin(); it != end(); ++it) visit *it; end() = capacity_ (458) *)
Fixpoint iterate_from (fuel : nat) (t : tbl) (i : nat) : res (list (K * V)) :=
  match fuel with
  | O => Fuel
  | S f => if i =? t_cap t then Ok [] else
           let* e := rd_ent t i in
           let* j := next_ t i in
           let* l := iterate_from f t j in
           Ok (e :: l)
  end.
Definition iterate (t : tbl) : res (list (K * V)) :=
  let* i := begin_ t in iterate_from (S (t_cap t)) t i.

(* 409-414 insert(first, last); 271-277, 294-305 copy *)
Fixpoint emplace_all (t : tbl) (l : list (K * V)) : res tbl :=
  match l with
  | [] => Ok t
  | e :: l => let* ' (t, _, _) := emplace t e in emplace_all t l
  end.
Definition copy_construct (other : tbl) : res tbl :=
  if (t_size other =? 0)%N then Ok empty_tbl
  else let* l := iterate other in emplace_all empty_tbl l.

(* 658-669 operator== ; veq is operator== of mapped_type *)
Fixpoint all_in (veq : V -> V -> bool) (b : tbl) (l : list (K * V)) : res bool :=
  match l with
  | [] => Ok true
  | e :: l =>
      let* r := find_ b (fst e) in
      match r with
      | None => Ok false
      | Some i => let* x := rd_ent b i in
                  if veq (snd e) (snd x) then all_in veq b l else Ok false
      end
  end.
Definition equal (veq : V -> V -> bool) (a b : tbl) : res bool :=
  if (t_size a =? t_size b)%N then let* l := iterate a in all_in veq b l else Ok false.

(* ---- histories ---- *)
Inductive op : Type :=
| Emplace (k : K) (v : V)       (* m.emplace(k, v) / m.insert({k, v}) *)
| Assign (k : K) (v : V)        (* m[k] = v *)
| Bracket (k : K)               (* m[k] *)
| Find (k : K) | At (k : K) | Get (k : K)
| Erase (k : K)
| Clear | Rehash
| Size | Iterate
| Copy                          (* m = hash_map(m), a fresh copy replaces m *).
Inductive out : Type :=
| ONone
| OIns (inserted : bool) (v : V)   (* second, and the value it->second *)
| OVal (v : V)
| OEntry (e : option (K * V))
| OOpt (v : option V)
| OOutOfRange                     (* at() throws std::out_of_range *)
| ONum (n : N)
| OList (l : list (K * V)).

Definition step (t : tbl) (o : op) : res (tbl * out) :=
  match o with
  | Emplace k v => let* ' (t, i, ins) := emplace t (k, v) in
                   let* e := rd_ent t i in Ok (t, OIns ins (snd e))
  | Assign k v => let* ' (t, i) := bracket t k in
                  let* e := rd_ent t i in
                  let* t := set_ent t i (Some (fst e, v)) in Ok (t, ONone)
  | Bracket k => let* ' (t, i) := bracket t k in
                 let* e := rd_ent t i in Ok (t, OVal (snd e))
  | Find k => let* r := find_ t k in
              match r with
              | None => Ok (t, OEntry None)
              | Some i => let* e := rd_ent t i in Ok (t, OEntry (Some e))
              end
  | At k => let* r := find_ t k in  (* 353-359 *)
            match r with
            | None => Ok (t, OOutOfRange)
            | Some i => let* e := rd_ent t i in Ok (t, OVal (snd e))
            end
  | Get k => let* r := find_ t k in (* 335-345 *)
             match r with
             | None => Ok (t, OOpt None)
             | Some i => let* e := rd_ent t i in Ok (t, OOpt (Some (snd e)))
             end
  | Erase k => let* ' (t, n) := erase t k in Ok (t, ONum (N.of_nat n))
  | Clear => let* t := clear t in Ok (t, ONone)
  | Rehash => let* t := rehash t in Ok (t, ONone)
  | Size => Ok (t, ONum (t_size t))
  | Iterate => let* l := iterate t in Ok (t, OList l)
  | Copy => let* c := copy_construct t in Ok (c, ONone)
  end.

Fixpoint run (t : tbl) (ops : list op) : res (tbl * list out) :=
  match ops with
  | [] => Ok (t, [])
  | o :: ops => let* ' (t, x) := step t o in
                let* ' (t, xs) := run t ops in Ok (t, x :: xs)
  end.
End Table.
