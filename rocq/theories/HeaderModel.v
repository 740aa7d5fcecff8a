(* Model of the file header of include/cista/serialization.h: where version
   hash, checksum and root object are written and how they are verified.
   The in-memory target is that of include/cista/targets/buf.h. *)
From Verif Require Import Base Bytes FnvModel.
Local Open Scope N_scope.

(* mode.h:7-20 *)
Definition UNCHECKED : N := 1.
Definition WITH_VERSION : N := 2.
Definition WITH_INTEGRITY : N := 4.
Definition SERIALIZE_BIG_ENDIAN : N := 8.
Definition DEEP_CHECK : N := 16.
Definition CAST : N := 32.
Definition WITH_STATIC_VERSION : N := 64.
Definition SKIP_INTEGRITY : N := 128.
Definition SKIP_VERSION : N := 256.
(* mode.h:32-34 *)
Definition is_mode_enabled (m flag : N) : bool := N.land m flag =? flag.

(* serialization.h:462-470 *)
Definition integrity_start (m : N) : nat :=
  if is_mode_enabled m WITH_VERSION || is_mode_enabled m WITH_STATIC_VERSION ||
     is_mode_enabled m SKIP_VERSION
  then 8%nat else 0%nat.
(* serialization.h:472-479 *)
Definition data_start (m : N) : nat :=
  (integrity_start m +
   (if is_mode_enabled m WITH_INTEGRITY || is_mode_enabled m SKIP_INTEGRITY
    then 8 else 0))%nat.

(* std::align with unlimited space: the least address >= p that is a multiple
   of [a]. *)
Definition align_up (a p : nat) : nat :=
  (if p mod a =? 0 then p else p + (a - p mod a))%nat.

(* targets/buf.h:39-63: buf::write(ptr, num_bytes, alignment).
   [base] is the address &buf_[0] at the time of the call: the alignment is
   that of the absolute address. Returns the start offset. The vector grows by
   value-initialised (zero) bytes. Simplification: std::align never fails
   (space is SIZE_MAX) and sizes stay below 2^63. *)
Definition buf_write (base : nat) (buf data : list N) (alignment : nat) : list N * nat :=
  let start := length buf in
  let start :=
    if (Nat.ltb 1 alignment && negb (Nat.eqb (length buf) 0))%bool
    then (align_up alignment (base + start) - base)%nat else start in
  let buf := buf ++ zeros (start + length data - length buf) in
  (put start data buf, start).

(* targets/buf.h:33-37: buf::write(pos, val) *)
Definition buf_write_at (buf : list N) (pos : nat) (val : list N) : res (list N) :=
  let* _ := verify (pos + length val <=? length buf)%nat in
  Ok (put pos val buf).

Section Header.
Variable host_be : bool.       (* host byte order *)
Variable m : N.                (* Mode *)
Let big := is_mode_enabled m SERIALIZE_BIG_ENDIAN.
Variable type_hash : N.        (* type_hash<T>() resp. static_type_hash<T>() *)

(* A 64-bit header word as written: convert_endian, then memcpy of the object. *)
Definition hdr_bytes (x : N) : list N :=
  host_bytes host_be 8 (convert_endian big host_be 8 x).
(* convert_endian<Mode>( *reinterpret_cast<uint64_t const*>(from + i)) *)
Definition hdr_read (b : list N) (i : nat) : res N :=
  match get i 8 b with
  | Some l => Ok (convert_endian big host_be 8 (host_value host_be l))
  | None => UB (* read past the end of the buffer *)
  end.

(* serialization.h:485-506, header part and the write of the root object
   [root] (its bytes; alignment ra). [base] maps the buffer size before a
   write to the address of the buffer (std::vector may reallocate).
   Result: buffer, integrity_offset, root offset. *)
Definition serialize_start (base : nat -> nat) (root : list N) (ra : nat)
  : list N * nat * nat :=
  let b := [] in
  let b := if is_mode_enabled m WITH_VERSION || is_mode_enabled m WITH_STATIC_VERSION
           then fst (buf_write (base (length b)) b (hdr_bytes type_hash) 0) else b in
  let p := if is_mode_enabled m WITH_INTEGRITY
           then buf_write (base (length b)) b (host_bytes host_be 8 0) 0 else (b, 0%nat) in
  let q := buf_write (base (length (fst p))) (fst p) root ra in
  (fst q, snd p, snd q).

(* serialization.h:517-522: the checksum is patched last. *)
Definition serialize_finish (b : list N) (integrity_offset : nat) : res (list N) :=
  if is_mode_enabled m WITH_INTEGRITY
  then buf_write_at b integrity_offset
         (hdr_bytes (hash (skipn (integrity_offset + 8) b) BASE_HASH))
  else Ok b.

(* serialization.h:667-690: check<T, Mode>(from, to); [b] = the bytes
   [from, to). Throw = cista_exception. *)
Definition check (b : list N) : res unit :=
  let* _ := verify (data_start m <? length b)%nat in
  let* _ :=
    if is_mode_enabled m WITH_VERSION || is_mode_enabled m WITH_STATIC_VERSION
    then let* v := hdr_read b 0 in verify (v =? type_hash)
    else Ok tt in
  if is_mode_enabled m WITH_INTEGRITY
  then let* v := hdr_read b (integrity_start m) in
       verify (v =? hash (skipn (data_start m) b) BASE_HASH)
  else Ok tt.
End Header.
