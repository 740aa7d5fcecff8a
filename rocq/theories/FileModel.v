(* Model of targets/buf.h, targets/file.h, chunk.h and mmap.h (the POSIX branches). Bytes are numbers below 256,
   file sizes and offsets are unbounded (in the code they stay below 2^63). *)
From Verif Require Import Base FlatModel TupleModel FnvModel.
Definition bytes := list N.

(* ---------------- chunk.h 8-19 ---------------- *)
(* the calls fn(offset, size); it never ends for a chunk size of 0 *)
Fixpoint chunk (fuel cs off remaining : nat) : res (list (nat * nat)) :=
  match remaining with
  | 0 => Ok []
  | _ => match fuel with
         | 0 => Fuel
         | S fuel => let c := Nat.min remaining cs in
                     let* l := chunk fuel cs (off + c) (remaining - c) in Ok ((off, c) :: l)
         end
  end.

(* ---------------- targets/buf.h ---------------- *)
(* 39-63 write; base is the address of the bytes at that moment, from which the address to align is computed.
   std::align fails only if there is no space left in the address space *)
Definition buf_write (b : bytes) (base : nat) (bs : bytes) (a : nat) : res (bytes * nat) :=
  let start := length b in
  let start := if (1 <? a) && negb (length b =? 0) then align_up (base + start) a - base else start in
  let b := if length b <? start + length bs then b ++ repeat 0%N (start + length bs - length b) else b in
  if length b =? 0 then UB else let* b := wr b start bs in Ok (b, start).
(* 33-37 write at a position *)
Definition buf_patch (b : bytes) (pos : nat) (bs : bytes) : res bytes :=
  if pos + length bs <=? length b then wr b pos bs else Throw.
(* 27-31 checksum *)
Definition buf_checksum (b : bytes) (start : nat) : res N :=
  if start <? length b then Ok (hash (skipn start b) BASE_HASH) else UB.

(* ---------------- targets/file.h 205-305 ---------------- *)
(* the contents as seen through f_, and size_ *)
Record file := F { fbytes : bytes; fsize : nat }.
(* fseek and fwrite: a gap reads as zero; writing nothing does not extend the file *)
Definition fwrite (f : bytes) (pos : nat) (bs : bytes) : bytes :=
  match bs with
  | [] => f
  | _ => let f := f ++ repeat 0%N (pos + length bs - length f) in firstn pos f ++ bs ++ skipn (pos + length bs) f
  end.
(* 281-301 write *)
Definition file_write (f : file) (bs : bytes) (a : nat) : file * nat :=
  let cur := if 1 <? a then align_up (fsize f) a else fsize f in
  let pos := if 1 <? a then cur else length (fbytes f) in        (* SEEK_SET or SEEK_END *)
  (F (fwrite (fbytes f) pos bs) (cur + length bs), cur).
(* 273-279 write at a position *)
Definition file_patch (f : file) (pos : nat) (bs : bytes) : file := F (fwrite (fbytes f) pos bs) (fsize f).
(* 258-271 checksum; cs is the block size 512 * 1024 *)
Definition file_checksum (cs : nat) (f : file) (start : nat) : res N :=
  if fsize f <? start then Throw
  else
    let* l := chunk (fsize f - start) cs 0 (fsize f - start) in
    fold_left (fun (r : res N) c =>
      let* h := r in
      let s := firstn (snd c) (skipn (start + fst c) (fbytes f)) in       (* fread continues where it stopped *)
      if length s =? snd c then Ok (hash s h) else Throw) l (Ok BASE_HASH).

(* ---------------- mmap.h ---------------- *)
Inductive prot := READ | WRITE | MODIFY.
(* the file; what it was since it was last known to be on the disk (newest first); 207-211 prot_, size_, used_size_ and
   whether addr_ is not null. A shared mapping is the file itself *)
Record mm := MM { mfile : bytes; mhist : list bytes; mprot : prot; msize : nat; mused : nat; maddr : bool }.
Definition set_file (m : mm) (f : bytes) : mm := MM f (f :: mhist m) (mprot m) (msize m) (mused m) (maddr m).
Definition ftruncate (f : bytes) (n : nat) : bytes := firstn n f ++ repeat 0%N (n - length f).
(* the smallest power of two that is not smaller, see C33 *)
Definition next_power_of_two (n : nat) : nat := if n =? 0 then 1 else 2 ^ Nat.log2_up n.
(* 31-38, f is the file found there; w+ truncates it *)
Definition mm_open (f : bytes) (p : prot) : mm :=
  let f := match p with WRITE => [] | _ => f end in
  MM f [f] p (length f) (length f) (negb (length f =? 0)).
(* 79-89 sync *)
Definition mm_sync (m : mm) : mm :=
  match mprot m with
  | READ => m
  | _ => if maddr m then MM (mfile m) [mfile m] (mprot m) (msize m) (mused m) (maddr m) else m
  end.
(* 176-194 resize_file; fails: ftruncate reports an error. The flag tells that an exception was thrown *)
Definition resize_file (m : mm) (fails : bool) : mm * bool :=
  match mprot m with
  | READ => (m, false)
  | _ => if fails then (m, true) else (set_file m (ftruncate (mfile m) (msize m)), false)
  end.
(* 196-205 resize_map; mapping itself succeeds *)
Definition resize_map (m : mm) (n : nat) (fails : bool) : mm * bool :=
  match mprot m with
  | READ => (m, false)
  | _ => let m := MM (mfile m) (mhist m) (mprot m) n (mused m) false in
         let (m, thrown) := resize_file m fails in
         if thrown then (m, true) else (MM (mfile m) (mhist m) (mprot m) (msize m) (mused m) true, false)
  end.
(* 91-98 resize and 100-106 reserve *)
Definition mm_reserve (m : mm) (n : nat) (fails : bool) : mm * bool :=
  match mprot m with
  | READ => (m, true)
  | _ => if msize m <? n then resize_map m (next_power_of_two n) fails else (m, false)
  end.
Definition mm_resize (m : mm) (n : nat) (fails : bool) : mm * bool :=
  let (m, thrown) := mm_reserve m n fails in
  if thrown then (m, true) else (MM (mfile m) (mhist m) (mprot m) (msize m) n (maddr m), false).
(* bytes through data(): outside the mapping, or writing to a read-only mapping, is UB *)
Definition mm_read (m : mm) (off n : nat) : res bytes :=
  if maddr m && (off + n <=? msize m) then rd (mfile m) off n else UB.
Definition mm_write (m : mm) (off : nat) (bs : bytes) : res mm :=
  match mprot m with
  | READ => UB
  | _ => if maddr m && (off + length bs <=? msize m) then let* f := wr (mfile m) off bs in Ok (set_file m f) else UB
  end.
(* 40-49 the destructor; what is left is the file *)
Definition mm_close (m : mm) : mm :=
  if maddr m then
    let m := mm_sync m in
    let m := MM (mfile m) (mhist m) (mprot m) (mused m) (mused m) false in
    if msize m =? length (mfile m) then m else fst (resize_file m false)
  else m.
(* 66-77 move assignment: the old mapping is not closed; the old file is left as it is *)
Definition mm_move_assign (m o : mm) : mm * bytes := (o, mfile m).

Inductive mop := MResize (n : nat) (fails : bool) | MReserve (n : nat) (fails : bool) | MWrite (off : nat) (bs : bytes) | MRead (off n : nat) | MSync | MSize.
Inductive mans := MNone | MThrow | MBytes (bs : bytes) | MNum (n : nat).
Definition mflag (r : mm * bool) : res (mm * mans) := let (m, t) := r in Ok (m, if t then MThrow else MNone).
Definition mm_step (m : mm) (o : mop) : res (mm * mans) :=
  match o with
  | MResize n fails => mflag (mm_resize m n fails)
  | MReserve n fails => mflag (mm_reserve m n fails)
  | MWrite off bs => let* m := mm_write m off bs in Ok (m, MNone)
  | MRead off n => let* bs := mm_read m off n in Ok (m, MBytes bs)
  | MSync => Ok (mm_sync m, MNone)
  | MSize => Ok (m, MNum (mused m))          (* 108 *)
  end.

(* buf over a memory map (io.h 19-25): the writes of buf.h again, with mmap::resize; base is the address of the mapping *)
Definition mbuf_write (m : mm) (base : nat) (bs : bytes) (a : nat) : res (mm * nat) :=
  let start := mused m in
  let start := if (1 <? a) && negb (mused m =? 0) then align_up (base + start) a - base else start in
  let (m, t) := if mused m <? start + length bs then mm_resize m (start + length bs) false else (m, false) in
  if t then Throw else if mused m =? 0 then UB else let* m := mm_write m start bs in Ok (m, start).
Definition mbuf_patch (m : mm) (pos : nat) (bs : bytes) : res mm :=
  if pos + length bs <=? mused m then mm_write m pos bs else Throw.
Definition mbuf_checksum (m : mm) (start : nat) : res N :=
  if start <? mused m then let* s := mm_read m start (mused m - start) in Ok (hash s BASE_HASH) else UB.

(* the writes of a serialization into a target, each with the address at which the memory of the target is at that moment *)
Inductive top := TWrite (bs : bytes) (a : nat) | TPatch (pos : nat) (bs : bytes) | TSum (start : nat).
Inductive tans := TOff (n : nat) | TNone | THash (h : N).
Definition buf_step (b : bytes) (o : top * nat) : res (bytes * tans) :=
  match fst o with
  | TWrite bs a => let* ' (b, off) := buf_write b (snd o) bs a in Ok (b, TOff off)
  | TPatch pos bs => let* b := buf_patch b pos bs in Ok (b, TNone)
  | TSum start => let* h := buf_checksum b start in Ok (b, THash h)
  end.
Definition file_step (cs : nat) (f : file) (o : top * nat) : res (file * tans) :=
  match fst o with
  | TWrite bs a => let (f, off) := file_write f bs a in Ok (f, TOff off)
  | TPatch pos bs => Ok (file_patch f pos bs, TNone)
  | TSum start => let* h := file_checksum cs f start in Ok (f, THash h)
  end.
Definition mbuf_step (m : mm) (o : top * nat) : res (mm * tans) :=
  match fst o with
  | TWrite bs a => let* ' (m, off) := mbuf_write m (snd o) bs a in Ok (m, TOff off)
  | TPatch pos bs => let* m := mbuf_patch m pos bs in Ok (m, TNone)
  | TSum start => let* h := mbuf_checksum m start in Ok (m, THash h)
  end.
