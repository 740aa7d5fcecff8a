(* Model of serialize, include/cista/serialization.h, as the sequence of writes it makes to its target: ser and serialize of SerialModel with a log of the
   calls of the target's write functions (targets/file.h 273-301, targets/buf.h 33-63), each a position and the bytes written there. C60_same_image shows that
   the log is that of SerialModel's serialize. *)
From Verif Require Import Base Bytes FnvModel HeaderModel HashModel SerialModel.
Local Open Scope Z_scope.

Definition wop : Type := nat * list N.
Record cst := C { c_st : st; c_ops : list wop }.

Section Crash.
Variable env : list ty.
Variable be_src : bool.
Variable be : bool.
Variable rel : bool.
Variable src : mem.

(* 68-71 write(ptr, size, alignment) *)
Definition cappend (s : cst) (data : list N) (al : Z) : cst * Z :=
  let '(s', start) := append (c_st s) data al in (C s' (c_ops s ++ [(Z.to_nat start, data)]), start).
(* 73-76 write(pos, val) *)
Definition cpatch_int (s : cst) (pos : Z) (w : nat) (x : N) : res cst :=
  let* s' := patch_int be (c_st s) pos w x in Ok (C s' (c_ops s ++ [(Z.to_nat pos, of_int be w x)])).
Definition cpatch_off (s : cst) (pos : Z) (off : Z) : res cst := cpatch_int s pos 8 (u_of_z off).
(* the maps of the context, 126-129 *)
Definition note_off (s : cst) (q start : Z) : cst :=
  let c := c_st s in C (St (s_buf c) ((q, start) :: s_offs c) (s_rngs c) (s_pend c)) (c_ops s).
Definition note_rng (s : cst) (q start size : Z) : cst :=
  let c := c_st s in C (St (s_buf c) (s_offs c) (s_rngs c ++ [(q, start, size)]) (s_pend c)) (c_ops s).
Definition note_pend (s : cst) (p : option Z) (pos : Z) : cst :=
  let c := c_st s in C (St (s_buf c) (s_offs c) (s_rngs c) (s_pend c ++ [(p, pos)])) (c_ops s).
(* 84-111 resolve_pointer *)
Definition cresolve (s : cst) (p : option Z) (pos : Z) (add_pending : bool) : res cst :=
  match p with
  | None => cpatch_off s pos NULLPTR_OFFSET
  | Some q =>
      match find_off q (s_offs (c_st s)) with
      | Some o => cpatch_off s pos (o - pos)
      | None =>
          match resolve_range (c_st s) q with
          | Some o => cpatch_off s pos (o - pos)
          | None =>
              if add_pending then let* s := cpatch_off s pos NULLPTR_OFFSET in Ok (note_pend s p pos)
              else Ok s
          end
      end
  end.

(* the same lines as SerialModel.ser *)
Fixpoint cser (f : nat) (t : ty) (a pos : Z) (s : cst) {struct f} : res cst :=
  match f with
  | O => Fuel
  | S f =>
    match t with
    | TInt w => (* 154-155 *)
        let* x := sint be_src src a w in cpatch_int s pos w x
    | TRaw _ => Ok s (* 156-159 *)
    | TPtr _ => (* 142-143 *)
        let* p := sptr be_src rel src a in cresolve s p pos true
    | TAgg fs _ _ => (* 147-153; array, pair, tuple, bitset: 400-459 *)
        foldM (fun ft s => cser f (snd ft) (a + fst ft) (pos + fst ft) s) fs s
    | TOpt t off _ _ => (* optional<T> const*: if has_value() serialize the value *)
        let* v := sint be_src src a 1 in
        if (v =? 0)%N then Ok s else cser f t (a + off) (pos + off) s
    | TVar ts off _ _ => (* variant<T...> const*: idx_, then apply *)
        let* i := sint be_src src a 1 in
        let* s := cpatch_int s pos 1 i in
        match nth_error ts (N.to_nat i) with
        | Some t => cser f t (a + off) (pos + off) s
        | None => Throw
        end
    | TUniq n => (* 303-324 *)
        let T := tyof env n in
        let* p := sptr be_src rel src a in
        match p with
        | None =>
            let* s := cpatch_off s pos NULLPTR_OFFSET in
            cpatch_int s (pos + 8) 1 0
        | Some q =>
            let* d := sbytes src q (Z.to_nat (size_of T)) in
            let '(s, start) := cappend s d (align_of T) in
            let* s := cpatch_off s pos (start - pos) in
            let* s := cpatch_int s (pos + 8) 1 0 in
            cser f T q start (note_off s q start)
        end
    | TVec w ix n => (* 163-200 *)
        let T := tyof env n in
        let* p := sptr be_src rel src a in
        let* used := sint be_src src (a + 8) w in
        let size := size_of T * Z.of_N used in
        let* ss :=
          if (used =? 0)%N then Ok (s, None)
          else match p with
               | None => UB (* memcpy from nullptr *)
               | Some q => let* d := sbytes src q (Z.to_nat size) in
                           let '(s, start) := cappend s d (align_of T) in
                           Ok (s, Some start)
               end in
        let '(s, start) := ss in
        let* s := cpatch_off s pos (rel_off start pos) in
        let* s := cpatch_int s (pos + 8 + Z.of_nat w) w used in
        let* s := cpatch_int s (pos + 8) w used in
        let* s := cpatch_int s (pos + 8 + 2 * Z.of_nat w) 1 0 in
        match p with
        | None => Ok s
        | Some q =>
            let start := match start with Some x => x | None => NULLPTR_OFFSET end in
            let s := if ix then note_rng s q start size
                     else s in
            foldM (fun i s => cser f T (q + Z.of_nat i * size_of T)
                                      (start + Z.of_nat i * size_of T) s)
                  (seq 0 (N.to_nat used)) s
        end
    | TStr => (* 202-240, CharT = char *)
        let* short := sint be_src src a 1 in
        if negb (short =? 0)%N then Ok s else
        let* p := sptr be_src rel src (a + 8) in
        let* size := sint be_src src (a + 4) 4 in
        let* ss :=
          match p with
          | None => Ok (s, None)
          | Some q => let* d := sbytes src q (N.to_nat size) in
                      let '(s, start) := cappend s d 0 in
                      Ok (s, Some start)
          end in
        let '(s, start) := ss in
        let* s := cpatch_off s (pos + 8) (rel_off start (pos + 8)) in
        let* s := cpatch_int s (pos + 4) 4 size in
        cpatch_int s (pos + 1) 1 0
    | TCStr => (* 258-285; c_str of an owning string and str() of a non-owning one both
                  end in a NUL *)
        let* rem := sint be_src src (a + 15) 1 in
        if (rem <? 128)%N then Ok s else
        let* p := sptr be_src rel src a in
        let* size := sint be_src src (a + 8) 4 in
        let* d := match p with
                  | Some q => sbytes src q (N.to_nat size)
                  | None => if (size =? 0)%N then Ok [] else UB
                  end in
        let '(s, start) := cappend s (d ++ [0%N]) 0 in
        let* s := cpatch_off s pos (start - pos) in
        let* s := cpatch_int s (pos + 8) 4 size in
        let* s := cpatch_int s (pos + 12) 1 0 in
        cpatch_int s (pos + 15) 1 255
    | THash n => (* 326-380 *)
        let T := tyof env n in
        let* pe := sptr be_src rel src a in
        let* pc := sptr be_src rel src (a + 8) in
        let* size := sint be_src src (a + 16) 8 in
        let* cap := sint be_src src (a + 24) 8 in
        let* growth := sint be_src src (a + 32) 8 in
        let bytes := Z.of_N cap * size_of T in
        let* ss :=
          match pe with
          | None => let '(s, c) := cappend s empty_group 1 in Ok (s, None, c)
          | Some q => let* d := sbytes src q (Z.to_nat (bytes + (Z.of_N cap + 9))) in
                      let '(s, start) := cappend s d (align_of T) in
                      Ok (s, Some start, start + bytes)
          end in
        let '(s, start, ctrl_start) := ss in
        let* s := cpatch_off s pos (rel_off start pos) in
        let* s := cpatch_off s (pos + 8) (ctrl_start - (pos + 8)) in
        let* s := cpatch_int s (pos + 40) 1 0 in
        let* s := cpatch_int s (pos + 16) 8 size in
        let* s := cpatch_int s (pos + 24) 8 cap in
        let* s := cpatch_int s (pos + 32) 8 growth in
        match pe, start with
        | Some q, Some start =>
            foldM (fun i s =>
                     match pc with
                     | None => UB
                     | Some c =>
                         let* b := sint be_src src (c + Z.of_nat i) 1 in
                         if is_full b then cser f T (q + Z.of_nat i * size_of T)
                                                   (start + Z.of_nat i * size_of T) s
                         else Ok s
                     end)
                  (seq 0 (N.to_nat cap)) s
        | _, _ => Ok s
        end
    end
  end.

(* 508-515 *)
Definition cflush (s : cst) : res cst :=
  foldM (fun p s => cresolve s (fst p) (snd p) false) (s_pend (c_st s)) s.
End Crash.

(* 481-523: all writes, in order: version, place for the checksum, root object, everything else, checksum *)
Definition save (env : list ty) (be_src rel : bool) (m : N) (type_hash : N) (src : mem) (f : nat) (t : ty) (a : Z) : res (list wop) :=
  let be := is_mode_enabled m SERIALIZE_BIG_ENDIAN in
  let* root := sbytes src a (Z.to_nat (size_of t)) in
  let '(b, io, pos) := serialize_start be_src m type_hash (fun _ => 0%nat) root (Z.to_nat (align_of t)) in
  let head := (if is_mode_enabled m WITH_VERSION || is_mode_enabled m WITH_STATIC_VERSION then [(0%nat, hdr_bytes be_src m type_hash)] else [])
              ++ (if is_mode_enabled m WITH_INTEGRITY then [(io, host_bytes be_src 8 0)] else []) ++ [(pos, root)] in
  let* s := cser env be_src be rel src f t a (Z.of_nat pos) (C (St b [] [] []) head) in
  let* s := cflush be s in
  Ok (c_ops s ++ if is_mode_enabled m WITH_INTEGRITY
                 then [(io, hdr_bytes be_src m (hash (skipn (io + 8) (s_buf (c_st s))) BASE_HASH))] else []).
