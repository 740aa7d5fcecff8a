(* Model of include/cista/serialization.h: the serializer (offset and raw pointers, either byte
   order) and the checked in-place deserializer (offset pointers, no byte order conversion).
   Types are described by their memory layout. An object lives in byte memory
   [Z -> option N] (None: not mapped); addresses are intptr_t values. *)
From Verif Require Import Base Bytes ArithModel HeaderModel HashModel.
Local Open Scope Z_scope.

(* The supported types. Recursion goes through names (indices into an environment).
   Layout numbers are those chosen by the C++ compiler, [w] are object sizes. *)
Inductive ty : Type :=
| TInt (w : nat)                           (* integral type (numeric_limits::is_integer), also chrono *)
| TRaw (w : nat)                           (* other scalars: float, double, enum *)
| TPtr (n : nat)                           (* non-owning Ptr<T_n> *)
| TAgg (fs : list (Z * ty)) (sz al : Z)    (* reflected struct, pair, tuple, array, bitset blocks, ...:
                                              fields with offsets, sizeof, alignof *)
| TOpt (t : ty) (off sz al : Z)            (* optional.h:139-140: valid_ at 0, storage_ at off *)
| TVar (ts : list ty) (off sz al : Z)      (* variant.h:356-357: idx_ (1 byte) at 0, storage_ at off *)
| TUniq (n : nat)                          (* unique_ptr.h:76-77: el_ 0, self_allocated_ 8 *)
| TVec (w : nat) (ix : bool) (n : nat)     (* basic_vector<T_n, Ptr, ix, uint(8w)>, vector.h: el_ 0,
                                              used_size_ 8, allocated_size_ 8+w, self_allocated_ 8+2w *)
| TStr                                     (* string.h:426-445: is_short_ 0, s_ 1..15 |
                                              self_allocated_ 1, size_ 4, ptr_ 8 *)
| TCStr                                    (* cstring.h:304-344: ptr_ 0, size_ 8, self_allocated_ 12,
                                              minus_one_/remaining_ 15 *)
| THash (n : nat).                         (* hash_storage.h:671-674: entries_ 0, ctrl_ 8, size_ 16,
                                              capacity_ 24, growth_left_ 32, self_allocated_ 40 *)

Definition size_of (t : ty) : Z :=
  match t with
  | TInt w | TRaw w => Z.of_nat w
  | TPtr _ => 8
  | TAgg _ sz _ | TOpt _ _ sz _ | TVar _ _ sz _ => sz
  | TUniq _ | TStr | TCStr => 16
  | TVec w _ _ => Z.of_nat (16 + 2 * w)
  | THash _ => 48
  end.
Definition align_of (t : ty) : Z :=
  match t with
  | TInt w | TRaw w => Z.of_nat w
  | TAgg _ _ al | TOpt _ _ _ al | TVar _ _ _ al => al
  | _ => 8
  end.

Definition mem := Z -> option N.
(* the n bytes at address a *)
Fixpoint rdn (m : mem) (a : Z) (n : nat) : option (list N) :=
  match n with
  | O => Some []
  | S n => match m a, rdn m (a + 1) n with
           | Some b, Some l => Some (b :: l)
           | _, _ => None
           end
  end.
(* a byte buffer at address B *)
Definition at_base (B : Z) (b : list N) : mem :=
  fun z => if z <? B then None else nth_error b (Z.to_nat (z - B)).

(* value of w bytes: little-endian, or big-endian if [be] *)
Definition to_int (be : bool) (l : list N) : N := le_dec (if be then rev l else l).
Definition of_int (be : bool) (w : nat) (x : N) : list N :=
  if be then rev (le_enc w x) else le_enc w x.

(* offset_t.h *)
Definition NULLPTR_OFFSET : Z := -9223372036854775808.
(* an intptr_t sum as computed by the hardware *)
Definition wrap_i64 (z : Z) : Z := z_of_u (u_of_z z).
(* The pointer stored as word [x] at address [slot]; None = nullptr.
   rel: offset_ptr<T>::get(), offset_ptr.h:70-76 (signed overflow wraps here; see
   [dptr] for the reader that reports it); else a raw pointer. *)
Definition ptr_of (rel : bool) (slot : Z) (x : N) : option Z :=
  let q := if rel then if z_of_u x =? NULLPTR_OFFSET then 0 else wrap_i64 (slot + z_of_u x)
           else z_of_u x in
  if q =? 0 then None else Some q.

Fixpoint foldM {A S} (g : A -> S -> res S) (l : list A) (s : S) : res S :=
  match l with
  | [] => Ok s
  | x :: l => let* s := g x s in foldM g l s
  end.

Section Types.
Variable env : list ty.
Definition tyof (n : nat) : ty := nth n env (TInt 1).

(* ================= serializer ================= *)
Section Ser.
Variable be_src : bool.     (* byte order of the host *)
Variable be : bool.         (* byte order of the file: mode SERIALIZE_BIG_ENDIAN *)
Variable rel : bool.        (* source uses offset_ptr (offset::) or raw pointers (raw::) *)
Variable src : mem.

Definition sbytes (a : Z) (n : nat) : res (list N) :=
  match rdn src a n with Some l => Ok l | None => UB end.
Definition sint (a : Z) (w : nat) : res N :=
  let* l := sbytes a w in Ok (to_int be_src l).
Definition sptr (a : Z) : res (option Z) :=
  let* x := sint a 8 in Ok (ptr_of rel a x).

(* serialization_context, 126-129. offsets_: the hash_map as an association list, last write
   first. vector_ranges_: the std::map as a list of (begin, start, size); emplace keeps the
   entry already present, so new ones go to the end. *)
Record st := St {
  s_buf : list N;
  s_offs : list (Z * Z);
  s_rngs : list (Z * Z * Z);
  s_pend : list (option Z * Z);
}.

(* 68-71 write(ptr, size, alignment) into targets/buf.h:39-63. Simplification: the buffer is
   at an address that is a multiple of every alignment in use. *)
Definition append (s : st) (data : list N) (al : Z) : st * Z :=
  let p := buf_write 0 (s_buf s) data (Z.to_nat al) in
  (St (fst p) (s_offs s) (s_rngs s) (s_pend s), Z.of_nat (snd p)).
(* 73-76 write(pos, val) with the bytes of the converted value *)
Definition patch (s : st) (pos : Z) (data : list N) : res st :=
  let* b := buf_write_at (s_buf s) (Z.to_nat pos) data in
  Ok (St b (s_offs s) (s_rngs s) (s_pend s)).
Definition patch_int (s : st) (pos : Z) (w : nat) (x : N) : res st :=
  patch s pos (of_int be w x).
(* an offset_t; convert_endian *)
Definition patch_off (s : st) (pos : Z) (off : Z) : res st :=
  patch_int s pos 8 (u_of_z off).

(* 39-45 contains, 47-50 offset_of *)
Definition in_range (p : Z) (r : Z * Z * Z) : bool :=
  let '(b, _, n) := r in (b <=? p) && (p <? b + n).
(* 113-125: std::prev(upper_bound(ptr)) = the entry with the greatest begin <= ptr *)
Definition pred_range (p : Z) (l : list (Z * Z * Z)) : option (Z * Z * Z) :=
  fold_left (fun acc r => if fst (fst r) <=? p
                          then match acc with
                               | Some q => if fst (fst q) <? fst (fst r) then Some r else acc
                               | None => Some r
                               end
                          else acc) l None.
Definition resolve_range (s : st) (p : Z) : option Z :=
  match pred_range p (s_rngs s) with
  | Some r => if in_range p r then Some (snd (fst r) + p - fst (fst r)) else None
  | None => None
  end.
Definition find_off (p : Z) (l : list (Z * Z)) : option Z :=
  match find (fun e => fst e =? p) l with Some e => Some (snd e) | None => None end.

(* 84-111 resolve_pointer (pointee type not void). The bool result only triggers a warning. *)
Definition resolve (s : st) (p : option Z) (pos : Z) (add_pending : bool) : res st :=
  match p with
  | None => patch_off s pos NULLPTR_OFFSET
  | Some q =>
      match find_off q (s_offs s) with
      | Some o => patch_off s pos (o - pos)
      | None =>
          match resolve_range s q with
          | Some o => patch_off s pos (o - pos)
          | None =>
              if add_pending then
                let* s := patch_off s pos NULLPTR_OFFSET in
                Ok (St (s_buf s) (s_offs s) (s_rngs s) (s_pend s ++ [(p, pos)]))
              else Ok s
          end
      end
  end.

(* start == NULLPTR_OFFSET ? start : start - member_offset - pos *)
Definition rel_off (start : option Z) (slot : Z) : Z :=
  match start with Some p => p - slot | None => NULLPTR_OFFSET end.

(* serialize(c, origin, pos): [a] = origin *)
Fixpoint ser (f : nat) (t : ty) (a pos : Z) (s : st) {struct f} : res st :=
  match f with
  | O => Fuel
  | S f =>
    match t with
    | TInt w => (* 154-155 *)
        let* x := sint a w in patch_int s pos w x
    | TRaw _ => Ok s (* 156-159 *)
    | TPtr _ => (* 142-143 *)
        let* p := sptr a in resolve s p pos true
    | TAgg fs _ _ => (* 147-153; array, pair, tuple, bitset: 400-459 *)
        foldM (fun ft s => ser f (snd ft) (a + fst ft) (pos + fst ft) s) fs s
    | TOpt t off _ _ => (* optional<T> const*: if has_value() serialize the value *)
        let* v := sint a 1 in
        if (v =? 0)%N then Ok s else ser f t (a + off) (pos + off) s
    | TVar ts off _ _ => (* variant<T...> const*: idx_, then apply *)
        let* i := sint a 1 in
        let* s := patch_int s pos 1 i in
        match nth_error ts (N.to_nat i) with
        | Some t => ser f t (a + off) (pos + off) s
        | None => Throw
        end
    | TUniq n => (* 303-324 *)
        let T := tyof n in
        let* p := sptr a in
        match p with
        | None =>
            let* s := patch_off s pos NULLPTR_OFFSET in
            patch_int s (pos + 8) 1 0
        | Some q =>
            let* d := sbytes q (Z.to_nat (size_of T)) in
            let '(s, start) := append s d (align_of T) in
            let* s := patch_off s pos (start - pos) in
            let* s := patch_int s (pos + 8) 1 0 in
            ser f T q start (St (s_buf s) ((q, start) :: s_offs s) (s_rngs s) (s_pend s))
        end
    | TVec w ix n => (* 163-200 *)
        let T := tyof n in
        let* p := sptr a in
        let* used := sint (a + 8) w in
        let size := size_of T * Z.of_N used in
        let* ss :=
          if (used =? 0)%N then Ok (s, None)
          else match p with
               | None => UB (* memcpy from nullptr *)
               | Some q => let* d := sbytes q (Z.to_nat size) in
                           let '(s, start) := append s d (align_of T) in
                           Ok (s, Some start)
               end in
        let '(s, start) := ss in
        let* s := patch_off s pos (rel_off start pos) in
        let* s := patch_int s (pos + 8 + Z.of_nat w) w used in
        let* s := patch_int s (pos + 8) w used in
        let* s := patch_int s (pos + 8 + 2 * Z.of_nat w) 1 0 in
        match p with
        | None => Ok s
        | Some q =>
            let start := match start with Some x => x | None => NULLPTR_OFFSET end in
            let s := if ix then St (s_buf s) (s_offs s) (s_rngs s ++ [(q, start, size)]) (s_pend s)
                     else s in
            foldM (fun i s => ser f T (q + Z.of_nat i * size_of T)
                                      (start + Z.of_nat i * size_of T) s)
                  (seq 0 (N.to_nat used)) s
        end
    | TStr => (* 202-240, CharT = char *)
        let* short := sint a 1 in
        if negb (short =? 0)%N then Ok s else
        let* p := sptr (a + 8) in
        let* size := sint (a + 4) 4 in
        let* ss :=
          match p with
          | None => Ok (s, None)
          | Some q => let* d := sbytes q (N.to_nat size) in
                      let '(s, start) := append s d 0 in
                      Ok (s, Some start)
          end in
        let '(s, start) := ss in
        let* s := patch_off s (pos + 8) (rel_off start (pos + 8)) in
        let* s := patch_int s (pos + 4) 4 size in
        patch_int s (pos + 1) 1 0
    | TCStr => (* 258-285; c_str of an owning string and str() of a non-owning one both
                  end in a NUL *)
        let* rem := sint (a + 15) 1 in
        if (rem <? 128)%N then Ok s else
        let* p := sptr a in
        let* size := sint (a + 8) 4 in
        let* d := match p with
                  | Some q => sbytes q (N.to_nat size)
                  | None => if (size =? 0)%N then Ok [] else UB
                  end in
        let '(s, start) := append s (d ++ [0%N]) 0 in
        let* s := patch_off s pos (start - pos) in
        let* s := patch_int s (pos + 8) 4 size in
        let* s := patch_int s (pos + 12) 1 0 in
        patch_int s (pos + 15) 1 255
    | THash n => (* 326-380 *)
        let T := tyof n in
        let* pe := sptr a in
        let* pc := sptr (a + 8) in
        let* size := sint (a + 16) 8 in
        let* cap := sint (a + 24) 8 in
        let* growth := sint (a + 32) 8 in
        let bytes := Z.of_N cap * size_of T in
        let* ss :=
          match pe with
          | None => let '(s, c) := append s empty_group 1 in Ok (s, None, c)
          | Some q => let* d := sbytes q (Z.to_nat (bytes + (Z.of_N cap + 9))) in
                      let '(s, start) := append s d (align_of T) in
                      Ok (s, Some start, start + bytes)
          end in
        let '(s, start, ctrl_start) := ss in
        let* s := patch_off s pos (rel_off start pos) in
        let* s := patch_off s (pos + 8) (ctrl_start - (pos + 8)) in
        let* s := patch_int s (pos + 40) 1 0 in
        let* s := patch_int s (pos + 16) 8 size in
        let* s := patch_int s (pos + 24) 8 cap in
        let* s := patch_int s (pos + 32) 8 growth in
        match pe, start with
        | Some q, Some start =>
            foldM (fun i s =>
                     match pc with
                     | None => UB
                     | Some c =>
                         let* b := sint (c + Z.of_nat i) 1 in
                         if is_full b then ser f T (q + Z.of_nat i * size_of T)
                                                   (start + Z.of_nat i * size_of T) s
                         else Ok s
                     end)
                  (seq 0 (N.to_nat cap)) s
        | _, _ => Ok s
        end
    end
  end.

(* 508-515: pending pointers *)
Definition flush_pending (s : st) : res st :=
  foldM (fun p s => resolve s (fst p) (snd p) false) (s_pend s) s.
End Ser.

(* 481-523: the top level. [m] = mode, [hash] = type hash, [t] type and [a] address of the root
   object. Result: the finished bytes. *)
Definition serialize (be_src rel : bool) (m : N) (type_hash : N) (src : mem) (f : nat)
  (t : ty) (a : Z) : res (list N) :=
  let be := is_mode_enabled m SERIALIZE_BIG_ENDIAN in
  let* root := sbytes src a (Z.to_nat (size_of t)) in
  let '(b, io, pos) := serialize_start be_src m type_hash (fun _ => 0%nat) root
                         (Z.to_nat (align_of t)) in
  let* s := ser be_src be rel src f t a (Z.of_nat pos) (St b [] [] []) in
  let* s := flush_pending be s in
  serialize_finish be_src m (s_buf s) io.

(* ================= checked deserializer ================= *)
(* offset_ptr members, host byte order = file byte order, DEEP_CHECK off: nothing is written. *)
Section Deser.
Variable be : bool.          (* byte order of the host and the file *)
Variable strict_i64 : bool.  (* signed overflow in offset_ptr::get() is UB (true) or wraps (false) *)
Variable m : mem.
Variables from to : Z.

Definition dbytes (a : Z) (n : nat) : res (list N) :=
  match rdn m a n with Some l => Ok l | None => UB end.
Definition dint (a : Z) (w : nat) : res Z :=
  let* l := dbytes a w in Ok (Z.of_N (to_int be l)).
(* the offset_ptr at address a, as a T*: offset_ptr.h:65, 70-76 *)
Definition dptr (a : Z) : res (option Z) :=
  let* l := dbytes a 8 in
  let off := z_of_u (to_int be l) in
  if strict_i64 && negb (off =? NULLPTR_OFFSET) &&
     negb ((NULLPTR_OFFSET <=? a + off) && (a + off <? - NULLPTR_OFFSET))
  then UB
  else Ok (ptr_of true a (to_int be l)).

(* 612-635 check_ptr(T*, size); size is a size_t *)
Definition check_raw (p size al : Z) : res unit :=
  if (p =? 0) || (to =? 0) then Ok tt else
  let* _ := verify (from <=? p) in
  let* e := checked_addition ty_i64 p [z_of_u (Z.to_N size)] in
  let* _ := verify (e <=? to) in
  let* _ := verify (size <? 9223372036854775807) in
  verify (p mod al =? 0).
(* 603-610 check_ptr(offset_ptr, size) *)
Definition check_optr (slot size al : Z) : res unit :=
  let* p := dptr slot in
  match p with
  | None => Ok tt
  | Some q =>
      let* l := dbytes slot 8 in
      let* _ := checked_addition ty_i64 (z_of_u (to_int be l)) [slot] in
      check_raw q size al
  end.
(* deserialize(c, &offset_ptr member): 737-746, 763-783 *)
Definition deser_optr (slot : Z) (T : ty) : res unit :=
  let* _ := check_raw slot 8 8 in
  check_optr slot (size_of T) (align_of T).
(* 637-640 *)
Definition check_bool (a : Z) : res Z :=
  let* b := dint a 1 in
  let* _ := verify (b <=? 1) in Ok b.

Fixpoint forM {A} (g : A -> res unit) (l : list A) : res unit :=
  match l with
  | [] => Ok tt
  | x :: l => let* _ := g x in forM g l
  end.

(* iteration over a hash table (994-999): slots visited by begin/operator++ of hash_storage *)
Fixpoint slots_from (f : nat) (t : tbl unit unit) (i : nat) : res (list nat) :=
  match f with
  | O => Fuel
  | S f => if (i =? t_cap _ _ t)%nat then Ok [] else
           let* j := next_ _ _ t i in
           let* l := slots_from f t j in
           Ok (i :: l)
  end.
Definition slots (t : tbl unit unit) : res (list nat) :=
  let* i := begin_ _ _ t in slots_from (S (t_cap _ _ t)) t i.

(* 965-982: the counters of std::accumulate over the control bytes *)
Definition count (p : N -> bool) (l : list N) : N := N.of_nat (length (filter p l)).
Fixpoint count_growth (t : tbl unit unit) (l : list nat) : res N :=
  match l with
  | [] => Ok 0%N
  | i :: l =>
      match nth_error (t_ctrl _ _ t) i with
      | None => UB
      | Some c =>
          let* w := if is_empty c then was_never_full _ _ t i else Ok false in
          let* n := count_growth t l in
          Ok (n + if w then 1 else 0)%N
      end
  end.
(* 953-989, given the capacity + 9 control bytes *)
Definition check_ctrl (ctrl : list N) (size cap growth : Z) : res unit :=
  let t := Tbl unit unit [] ctrl 0 (Z.to_nat cap) 0 in
  let front := firstn (Z.to_nat cap) ctrl in
  let* _ := match nth_error ctrl (Z.to_nat cap) with
            | None => UB
            | Some c => verify (c =? END)%N
            end in
  let* _ := verify (forallb (fun c => is_empty c || is_deleted c || is_full c || (c =? END)%N) ctrl) in
  let* tg := count_growth t (seq 0 (Z.to_nat cap)) in
  let* _ := verify (size =? Z.of_N (count is_full front)) in
  let* _ := verify (Z.of_N (count is_empty front + count is_full front + count is_deleted front)%N =? cap) in
  verify (Z.of_N (N.min (sub64 (N.of_nat (capacity_to_growth (Z.to_nat cap))) (Z.to_N size)) tg)
          <=? growth).

Fixpoint deser (f : nat) (t : ty) (a : Z) {struct f} : res unit :=
  match f with
  | O => Fuel
  | S f =>
    let* _ := check_raw a (size_of t) (align_of t) in (* 738 *)
    match t with
    | TInt _ | TRaw _ => Ok tt
    | TPtr n => check_optr a (size_of (tyof n)) (align_of (tyof n)) (* 768-770 *)
    | TAgg fs _ _ => forM (fun ft => deser f (snd ft) (a + fst ft)) fs (* 717-760, 900-912, 1001-1013, 1044-1048 *)
    | TOpt t off _ _ => (* 1031-1042 *)
        let* v := check_bool a in
        if v =? 0 then Ok tt else deser f t (a + off)
    | TVar ts off _ _ => (* 1015-1029; apply runs the alternative idx_ *)
        let* i := dint a 1 in
        let* _ := verify (i <? Z.of_nat (length ts)) in
        match nth_error ts (Z.to_nat i) with
        | Some t => deser f t (a + off)
        | None => UB
        end
    | TUniq n => (* 881-898 *)
        let* _ := deser_optr a (tyof n) in
        let* b := check_bool (a + 8) in
        let* _ := verify (b =? 0) in
        let* p := dptr a in
        match p with None => Ok tt | Some q => deser f (tyof n) q end
    | TVec w _ n => (* 785-815 *)
        let T := tyof n in
        let* _ := deser_optr a T in
        let* alloc := dint (a + 8 + Z.of_nat w) w in
        let* k := checked_multiplication ty_u64 alloc [size_of T] in
        let* _ := check_optr a k (align_of T) in
        let* b := check_bool (a + 8 + 2 * Z.of_nat w) in
        let* _ := verify (b =? 0) in
        let* used := dint (a + 8) w in
        let* _ := verify (alloc =? used) in
        let* p := dptr a in
        let* _ := verify (Bool.eqb (used =? 0) match p with None => true | _ => false end) in
        match p with
        | None => Ok tt
        | Some q => forM (fun i => deser f T (q + Z.of_nat i * size_of T)) (seq 0 (Z.to_nat used))
        end
    | TStr => (* 817-850 *)
        let* b0 := dint a 1 in
        let* _ := if b0 =? 0 then deser_optr (a + 8) (TInt 1) else Ok tt in
        let* b0 := check_bool a in
        if negb (b0 =? 0) then Ok tt else
        let* size := dint (a + 4) 4 in
        let* _ := check_optr (a + 8) size 1 in
        let* b := check_bool (a + 1) in
        let* _ := verify (b =? 0) in
        let* p := dptr (a + 8) in
        verify (Bool.eqb (size =? 0) match p with None => true | _ => false end)
    | TCStr => Ok tt (* no overload for generic_cstring; it is not an aggregate *)
    | THash n => (* 914-999 *)
        let T := tyof n in
        let* _ := deser_optr a T in
        let* _ := deser_optr (a + 8) (TInt 1) in
        let* pc := dptr (a + 8) in
        let* _ := verify match pc with None => false | _ => true end in
        let* cap := dint (a + 24) 8 in
        let* bytes := checked_multiplication ty_u64 cap [size_of T] in
        let* c9 := checked_addition ty_u64 cap [1; 8] in
        let* tot := checked_addition ty_u64 bytes [c9] in
        let* _ := check_optr a tot (align_of T) in
        let* _ := check_optr (a + 8) c9 1 in
        let* pe := dptr a in
        let* _ := verify match pe, pc with
                         | Some e, Some c => c =? e + bytes
                         | Some _, None => false
                         | None, _ => true
                         end in
        let* size := dint (a + 16) 8 in
        let* _ := verify (Bool.eqb match pe with None => true | _ => false end
                                   ((cap =? 0) && (size =? 0))) in
        let* b := check_bool (a + 40) in
        let* _ := verify (b =? 0) in
        let* growth := dint (a + 32) 8 in
        match pc with
        | None => UB
        | Some c =>
            let* ctrl := dbytes c (Z.to_nat (cap + 9)) in
            let* _ := check_ctrl ctrl size cap growth in
            let* l := slots (Tbl unit unit [] ctrl 0 (Z.to_nat cap) 0) in
            match pe with
            | None => match l with [] => Ok tt | _ => UB end
            | Some e => forM (fun i => deser f T (e + Z.of_nat i * size_of T)) l
            end
        end
    end
  end.
End Deser.

(* 1064-1085 deserialize<T, Mode>(from, to) with the buffer at address B; result = the address
   of the root object. Modes: not CAST, not UNCHECKED, not DEEP_CHECK. *)
Definition deserialize (host_be strict_i64 : bool) (m : N) (type_hash : N) (f : nat) (t : ty)
  (B : Z) (b : list N) : res Z :=
  let* _ := check host_be m type_hash b in
  let el := B + Z.of_nat (data_start m) in
  let* _ := deser host_be strict_i64 (at_base B b) B (B + Z.of_nat (length b)) f t el in
  Ok el.
End Types.
