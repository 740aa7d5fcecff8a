(* What an aligned allocation promises. *)
From Verif Require Import Base AlignModel.
Local Open Scope N_scope.

(* the system call: C11 aligned_alloc; the size is a multiple of the alignment, which is a power of
   two; the block fits into the address space *)
Definition sys_ok (sys : N -> N -> option N) : Prop :=
  forall k s p, s mod 2 ^ k = 0 -> sys (2 ^ k) s = Some p -> p mod 2 ^ k = 0 /\ p + s <= 2 ^ 64.

(* m is the least multiple of k that is not below n *)
Definition least_multiple_ge (k n m : N) : Prop :=
  m mod k = 0 /\ n <= m /\ forall x, x mod k = 0 -> n <= x -> m <= x.

(* the bytes [a, a + n) belong to the block *)
Definition inside (b : block) (a n : N) : Prop := b_addr b <= a /\ a + n <= b_addr b + b_size b.
