(* Model of the in-place conversions done by deserialize of include/cista/serialization.h: raw
   pointers (raw::) are turned from offsets into addresses, and integers and offsets of a file in
   the other byte order are swapped. Checked and UNCHECKED. The memory changes while it is read. *)
From Verif Require Import Base Bytes ArithModel HeaderModel HashModel SerialModel.
Local Open Scope Z_scope.

(* memcpy of [l] to address [a] *)
Definition put_mem (m : mem) (a : Z) (l : list N) : mem :=
  fun z => if (a <=? z) && (z <? a + Z.of_nat (length l)) then nth_error l (Z.to_nat (z - a)) else m z.

Section Types.
Variable env : list ty.
Notation tyof := (tyof env).
Section Conv.
Variable hb : bool.          (* byte order of the host *)
Variable fb : bool.          (* byte order of the file *)
Variable raw : bool.         (* raw pointers (raw::) instead of offset_ptr *)
Variable chk : bool.         (* not UNCHECKED *)
Variable strict_i64 : bool.  (* as in [deser] *)
Variables from to : Z.

(* 574-579 convert_endian(el), el of w bytes *)
Definition swap (m : mem) (a : Z) (w : nat) : res mem :=
  if Bool.eqb hb fb then Ok m
  else let* l := dbytes m a w in Ok (put_mem m a (rev l)).
(* 581-591 deserialize_ptr; 763-765 convert_endian_and_ptr(offset_ptr) *)
Definition conv_ptr (m : mem) (slot : Z) : res mem :=
  if raw then
    let* l := dbytes m slot 8 in
    let off := z_of_u (to_int fb l) in
    let* p := if off =? NULLPTR_OFFSET then Ok 0 else checked_addition ty_i64 slot [off] in
    Ok (put_mem m slot (of_int hb 8 (u_of_z p)))
  else swap m slot 8.
(* the converted pointer at [slot] *)
Definition cptr (m : mem) (slot : Z) : res (option Z) :=
  if raw then let* l := dbytes m slot 8 in Ok (ptr_of false slot (to_int hb l))
  else dptr hb strict_i64 m slot.
(* 603-635 check_ptr of the pointer at [slot] *)
Definition check_slot (m : mem) (slot size al : Z) : res unit :=
  if raw then
    let* p := cptr m slot in
    match p with None => Ok tt | Some q => check_raw from to q size al end
  else check_optr hb strict_i64 m from to slot size al.
(* UNCHECKED: 614-616 check_ptr and 742-744 check_state do nothing *)
Definition when (r : res unit) : res unit := if chk then r else Ok tt.
(* 737-746 deserialize(c, &pointer member) *)
Definition conv_slot (m : mem) (slot : Z) (T : ty) : res mem :=
  let* _ := when (check_raw from to slot 8 8) in
  let* m := conv_ptr m slot in
  let* _ := when (check_slot m slot (size_of T) (align_of T)) in
  Ok m.

(* 797-806 check_state(basic_vector) *)
Definition check_vec (m : mem) (a : Z) (w : nat) (T : ty) : res unit :=
  let* alloc := dint hb m (a + 8 + Z.of_nat w) w in
  let* k := checked_multiplication ty_u64 alloc [size_of T] in
  let* _ := check_slot m a k (align_of T) in
  let* b := check_bool hb m (a + 8 + 2 * Z.of_nat w) in
  let* _ := verify (b =? 0) in
  let* used := dint hb m (a + 8) w in
  let* _ := verify (alloc =? used) in
  let* p := cptr m a in
  verify (Bool.eqb (used =? 0) match p with None => true | _ => false end).
(* 827-837 check_state(generic_string), char *)
Definition check_str (m : mem) (a : Z) : res unit :=
  let* b0 := check_bool hb m a in
  if negb (b0 =? 0) then Ok tt else
  let* size := dint hb m (a + 4) 4 in
  let* _ := check_slot m (a + 8) size 1 in
  let* b := check_bool hb m (a + 1) in
  let* _ := verify (b =? 0) in
  let* p := cptr m (a + 8) in
  verify (Bool.eqb (size =? 0) match p with None => true | _ => false end).
(* 928-989 check_state(hash_storage) *)
Definition check_hash (m : mem) (a : Z) (T : ty) : res unit :=
  let* pc := cptr m (a + 8) in
  let* _ := verify match pc with None => false | _ => true end in
  let* cap := dint hb m (a + 24) 8 in
  let* bytes := checked_multiplication ty_u64 cap [size_of T] in
  let* c9 := checked_addition ty_u64 cap [1; 8] in
  let* tot := checked_addition ty_u64 bytes [c9] in
  let* _ := check_slot m a tot (align_of T) in
  let* _ := check_slot m (a + 8) c9 1 in
  let* pe := cptr m a in
  let* _ := verify match pe, pc with
                   | Some e, Some c => c =? e + bytes
                   | Some _, None => false
                   | None, _ => true
                   end in
  let* size := dint hb m (a + 16) 8 in
  let* _ := verify (Bool.eqb match pe with None => true | _ => false end
                             ((cap =? 0) && (size =? 0))) in
  let* b := check_bool hb m (a + 40) in
  let* _ := verify (b =? 0) in
  let* growth := dint hb m (a + 32) 8 in
  match pc with
  | None => UB
  | Some c => let* ctrl := dbytes m c (Z.to_nat (cap + 9)) in check_ctrl ctrl size cap growth
  end.

(* 994-999: for (auto& m : *el) fn(&m), hash_storage.h:157-186. The control bytes are read again
   after each entry was converted. Simplification: a read behind the capacity + 9 control bytes
   is UB even if there is memory. *)
Definition ctrl_at (m : mem) (c : Z) (cap : nat) : res (tbl unit unit) :=
  let* ctrl := dbytes m c (cap + 9) in Ok (Tbl unit unit [] ctrl 0 cap 0).
Fixpoint hloop (g : nat -> mem -> res mem) (c : Z) (cap k i : nat) (m : mem) : res mem :=
  match k with
  | O => Fuel
  | S k => if (i =? cap)%nat then Ok m else
           let* m := g i m in
           let* t := ctrl_at m c cap in
           let* j := next_ _ _ t i in
           hloop g c cap k j m
  end.

(* the generic deserialize 737-746 with the overloads of 748-1062; result: the new memory *)
Fixpoint conv (f : nat) (t : ty) (m : mem) (a : Z) {struct f} : res mem :=
  match f with
  | O => Fuel
  | S f =>
    let* _ := when (check_raw from to a (size_of t) (align_of t)) in (* 738 *)
    match t with
    | TInt w => swap m a w (* 698-699, 1052-1062 *)
    | TRaw _ => Ok m
    | TPtr n => (* 696-697, 709-710, 763-770 *)
        let* m := conv_ptr m a in
        let* _ := when (check_slot m a (size_of (tyof n)) (align_of (tyof n))) in
        Ok m
    | TAgg fs _ _ => foldM (fun ft m => conv f (snd ft) m (a + fst ft)) fs m
    | TOpt t off _ _ => (* 1033-1042 *)
        let* v := if chk then check_bool hb m a else dint hb m a 1 in
        if v =? 0 then Ok m else conv f t m (a + off)
    | TVar ts off _ _ => (* 1016-1029; variant.h:330-334 unreachable *)
        let* i := dint hb m a 1 in
        let* _ := when (verify (i <? Z.of_nat (length ts))) in
        match nth_error ts (Z.to_nat i) with
        | Some t => conv f t m (a + off)
        | None => UB
        end
    | TUniq n => (* 883-898 *)
        let* m := conv_slot m a (tyof n) in
        let* _ := when (let* b := check_bool hb m (a + 8) in verify (b =? 0)) in
        let* p := cptr m a in
        match p with None => Ok m | Some q => conv f (tyof n) m q end
    | TVec w _ n => (* 788-815 *)
        let T := tyof n in
        let* m := conv_slot m a T in
        let* m := swap m (a + 8 + Z.of_nat w) w in
        let* m := swap m (a + 8) w in
        let* _ := when (check_vec m a w T) in
        let* used := dint hb m (a + 8) w in
        let* p := cptr m a in
        match p with
        | None => if used =? 0 then Ok m else UB
        | Some q => foldM (fun i m => conv f T m (q + Z.of_nat i * size_of T)) (seq 0 (Z.to_nat used)) m
        end
    | TStr => (* 819-850 *)
        let* b0 := dint hb m a 1 in
        let* m := if b0 =? 0 then let* m := conv_slot m (a + 8) (TInt 1) in swap m (a + 4) 4 else Ok m in
        let* _ := when (check_str m a) in
        Ok m
    | TCStr => Ok m (* no overload for generic_cstring; it is not an aggregate *)
    | THash n => (* 917-999 *)
        let T := tyof n in
        let* m := conv_slot m a T in
        let* m := conv_slot m (a + 8) (TInt 1) in
        let* m := swap m (a + 16) 8 in
        let* m := swap m (a + 24) 8 in
        let* m := swap m (a + 32) 8 in
        let* _ := when (check_hash m a T) in
        let* cap := dint hb m (a + 24) 8 in
        let* pe := cptr m a in
        let* pc := cptr m (a + 8) in
        match pc with
        | None => UB
        | Some c =>
            let cap := Z.to_nat cap in
            let* t := ctrl_at m c cap in
            let* i := begin_ _ _ t in
            hloop (fun i m => match pe with
                              | None => UB
                              | Some e => conv f T m (e + Z.of_nat i * size_of T)
                              end) c cap (cap + 10) i m
        end
    end
  end.
End Conv.

(* 1064-1085 deserialize<T, Mode>(from, to): the buffer [b] is at address B; result: the address
   of the root object and the memory afterwards. Modes: not CAST, not DEEP_CHECK. *)
Definition convert (host_be raw strict_i64 : bool) (m : N) (type_hash : N) (f : nat) (t : ty)
  (B : Z) (b : list N) : res (Z * mem) :=
  let* _ := check host_be m type_hash b in
  let el := B + Z.of_nat (data_start m) in
  let* m' := conv host_be (is_mode_enabled m SERIALIZE_BIG_ENDIAN) raw
               (negb (is_mode_enabled m UNCHECKED)) strict_i64
               B (B + Z.of_nat (length b)) f t (at_base B b) el in
  Ok (el, m').
End Types.
