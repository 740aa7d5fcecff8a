(* Model of include/cista/aligned_alloc.h (the std::aligned_alloc branch, lines 33-41),
   include/cista/aligned_allocator.h, the block layout of hash tables (containers/hash_storage.h:592-611)
   and copy_from_potentially_unaligned (serialization.h:1127-1152), on a 64-bit host.
   The system's aligned_alloc is a function argument: it gets alignment and size and answers with an
   address or, None, nullptr. *)
From Verif Require Import Base ArithModel.
Local Open Scope N_scope.

(* aligned_alloc.h:9-13 to_next_multiple, T1 of w bits; n % 0 is undefined *)
Definition to_next_multiple (w n multiple : N) : res N :=
  if multiple =? 0 then UB else
  let r := n mod multiple in
  Ok (if r =? 0 then n else (n + multiple - r) mod 2 ^ w).

Section Alloc.
Variable sys : N -> N -> option N.   (* std::aligned_alloc(alignment, size) *)

Record block := Block { b_addr : N; b_size : N; b_align : N }.

(* aligned_alloc.h:37-40 CISTA_ALIGNED_ALLOC; nullptr is None *)
Definition aligned_alloc (alignment size : N) : res (option block) :=
  let a := next_power_of_two 64 alignment in
  let* s := to_next_multiple 64 size a in
  Ok (match sys a s with Some p => Some (Block p s a) | None => None end).

(* aligned_allocator.h:33-40 allocate, for element size sz and template argument N = al *)
Definition allocate (al sz n : N) : res block :=
  let* b := aligned_alloc al (wrap64 (n * sz)) in
  match b with Some b => Ok b | None => Throw end.
(* 50-52 max_size: size_type(~0U) is the largest unsigned int *)
Definition max_size (sz : N) : N := u32_max / sz.

(* hash_storage.h:592-611 initialize_entries for element size sz, alignment al, WIDTH = 8, size_t
   capacities: the block and the address of the control bytes *)
Definition initialize_entries (al sz capacity : N) : res (block * N) :=
  let size := wrap64 (wrap64 (capacity * sz) + wrap64 (capacity + 1 + 8)) in
  let* b := aligned_alloc al size in
  match b with
  | Some b => Ok (b, wrap64 (b_addr b + wrap64 (capacity * sz)))
  | None => Throw
  end.

(* serialization.h:1127-1152: where the data is when it is deserialized, and the block that is freed
   when the function returns; the data is at address p and has len bytes; sizeof(max_align_t) = 32 *)
Definition copy_from_unaligned (p len : N) : res (N * option block) :=
  if p mod 32 =? 0 then Ok (p, None) else
  let* b := aligned_alloc 32 len in
  match b with
  | Some b => Ok (b_addr b, Some b)
  | None => Throw          (* verify(mem_ != nullptr) *)
  end.
End Alloc.

(* the same for a T with an offset::ptr member (or a string view, cstring view): the member at offset off
   of the data refers to the data d bytes behind itself; copying the T out (return *deserialize<T>(...))
   copies the absolute target. Result: the target of the returned member, the freed block *)
Definition copied_pointer (sys : N -> N -> option N) (p len off d : N) : res (N * option block) :=
  let* r := copy_from_unaligned sys p len in Ok (fst r + off + d, snd r).
