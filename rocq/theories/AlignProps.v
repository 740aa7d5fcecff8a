(* C48: aligned allocation *)
From Verif Require Import Base ArithModel ArithSpec ArithProofs AlignModel AlignSpec AlignProofs.
Local Open Scope N_scope.

(* C48: to_next_multiple rounds up to the least multiple, as long as that does not exceed the type *)
Theorem C48_next_multiple_partial : forall w n m, 0 < m -> n + m <= 2 ^ w ->
  exists r, to_next_multiple w n m = Ok r /\ least_multiple_ge m n r.
Proof. intros w n m H K. destruct (next_multiple w n m H K) as (r & A & B & _). eauto. Qed.
Print Assumptions C48_next_multiple_partial.

(* C48: aligned_allocator<T, N>::allocate(n) either throws because the system has no memory or returns a
   block of n elements, each inside the block and aligned for T if T's alignment is at most N. *)
Theorem C48_allocate_partial : forall sys al sz n, sys_ok sys -> 1 <= al <= 2 ^ 63 -> n * sz + 2 * al <= 2 ^ 64 ->
  (allocate sys al sz n = Throw /\ exists a s, sys a s = None) \/
  exists b, allocate sys al sz n = Ok b /\
    forall i, i < n -> inside b (b_addr b + i * sz) sz /\
      forall j, 2 ^ j <= al -> sz mod 2 ^ j = 0 -> (b_addr b + i * sz) mod 2 ^ j = 0.
Proof.
  intros sys al sz n S Ha Hs. destruct (allocate_ok sys al sz n Ha Hs) as [(b & E & F)|(E & F)]; [right|left; auto].
  exists b. split; auto. destruct (alloc_block sys al (n * sz) b S Ha Hs F) as (B1 & B2 & B3).
  intros i Hi. assert (i * sz + sz <= n * sz) by nia. split.
  - unfold inside. lia.
  - intros j Hj Hz. apply elem_aligned; auto.
Qed.
Print Assumptions C48_allocate_partial.

(* C48: in particular for every n up to max_size() *)
Theorem C48_max_size_safe : forall sz n, 0 < sz -> n <= max_size sz -> forall al, al <= 2 ^ 32 -> n * sz + 2 * al <= 2 ^ 64.
Proof.
  intros sz n Hz Hn al Ha. unfold max_size, u32_max in Hn.
  assert (sz * (4294967295 / sz) <= 4294967295) by (apply N.mul_div_le; lia).
  assert (n * sz <= 4294967295) by nia. change (2 ^ 32) with 4294967296 in Ha. change (2 ^ 64) with 18446744073709551616. lia.
Qed.
Print Assumptions C48_max_size_safe.

(* a system that always has memory at address 0 *)
Definition generous : N -> N -> option N := fun _ s => if s <=? 2 ^ 64 then Some 0 else None.
Lemma generous_ok : sys_ok generous.
Proof.
  intros k s p Hs E. unfold generous in E. destruct (s <=? 2 ^ 64) eqn:L; [|discriminate]. injection E as <-.
  split; [apply N.mod_0_l, N.pow_nonzero; lia|]. apply N.leb_le in L. rewrite N.add_0_l. exact L.
Qed.

(* Finding: n * sizeof(T) wraps. Asked for 2^61 elements of 8 bytes, allocate returns an empty block
   instead of throwing; the first element is already outside. *)
Theorem C48_allocate_wrap_refuted : exists n sz b, 0 < n /\ 0 < sz /\ allocate generous 16 sz n = Ok b /\
  ~ inside b (b_addr b) sz.
Proof.
  exists (2 ^ 61), 8, (Block 0 0 16). split; [reflexivity|]. split; [reflexivity|]. split; [vm_compute; reflexivity|].
  unfold inside. cbn. lia.
Qed.
Print Assumptions C48_allocate_wrap_refuted.

(* Finding: rounding up wraps as well: 2^64 - 8 bytes at alignment 16 become 0 *)
Theorem C48_round_wrap_refuted : to_next_multiple 64 (2 ^ 64 - 8) 16 = Ok 0.
Proof. vm_compute. reflexivity. Qed.
Print Assumptions C48_round_wrap_refuted.

(* Finding: max_size() is computed from unsigned int: containers with this allocator refuse to hold
   4 GiB, which the allocator could deliver. *)
Theorem C48_max_size_refuted : exists n sz, max_size sz < n /\ n * sz + 2 * 16 <= 2 ^ 64 /\
  is_ok (allocate generous 16 sz n) = true.
Proof. exists (2 ^ 29), 8. split; [vm_compute; reflexivity|]. split; [vm_compute; discriminate|]. vm_compute. reflexivity. Qed.
Print Assumptions C48_max_size_refuted.

(* C48: the block of a hash table: entries, each aligned, then the capacity + 9 control bytes, all inside *)
Theorem C48_hash_block_partial : forall sys al sz cap b c, sys_ok sys -> 1 <= al <= 2 ^ 63 ->
  cap * sz + cap + 9 + 2 * al <= 2 ^ 64 -> initialize_entries sys al sz cap = Ok (b, c) ->
  inside b c (cap + 9) /\
  forall i, i < cap -> inside b (b_addr b + i * sz) sz /\ b_addr b + i * sz + sz <= c /\
    forall j, 2 ^ j <= al -> sz mod 2 ^ j = 0 -> (b_addr b + i * sz) mod 2 ^ j = 0.
Proof.
  intros sys al sz cap b c S Ha Hs E. unfold initialize_entries, wrap64 in E. change W64 with (2 ^ 64) in E.
  rewrite (N.mod_small (cap * sz)) in E by lia. rewrite (N.mod_small (cap + 1 + 8)) in E by lia.
  rewrite (N.mod_small (cap * sz + (cap + 1 + 8))) in E by lia.
  destruct (aligned_alloc sys al (cap * sz + (cap + 1 + 8))) as [[b'|]| | |] eqn:F; cbn [bind] in E; try discriminate.
  injection E as -> <-.
  assert (Hs' : cap * sz + (cap + 1 + 8) + 2 * al <= 2 ^ 64) by lia.
  destruct (alloc_block sys al _ b S Ha Hs' F) as (B1 & B2 & B3).
  rewrite N.mod_small by lia. unfold inside. split; [lia|]. intros i Hi. assert (i * sz + sz <= cap * sz) by nia.
  split; [lia|]. split; [lia|]. intros j Hj Hz. apply elem_aligned; auto.
Qed.
Print Assumptions C48_hash_block_partial.

(* C48: copy_from_potentially_unaligned deserializes at an address aligned for every T of alignment up to
   32, inside memory that holds the whole data *)
Theorem C48_unaligned_copy : forall sys p len a f, sys_ok sys -> len + 64 <= 2 ^ 64 ->
  copy_from_unaligned sys p len = Ok (a, f) ->
  a mod 32 = 0 /\ match f with None => a = p | Some b => a = b_addr b /\ inside b a len end.
Proof.
  intros sys p len a f S Hl E. unfold copy_from_unaligned in E. destruct (p mod 32 =? 0) eqn:P.
  - injection E as <- <-. split; [lia|auto].
  - destruct (aligned_alloc sys 32 len) as [[b|]| | |] eqn:F; cbn [bind] in E; try discriminate. injection E as <- <-.
    destruct (alloc_block sys 32 len b S) as (B1 & B2 & B3); auto; [vm_compute; split; discriminate|].
    split; [apply (B3 5); vm_compute; discriminate|]. unfold inside. split; auto. lia.
Qed.
Print Assumptions C48_unaligned_copy.

(* Finding: the function returns the T by value and frees the aligned copy. Whatever a pointer or view
   member of the T referred to in the data is in the freed block, for every unaligned buffer. *)
Theorem C48_unaligned_pointer_refuted : forall sys p len off d q f, sys_ok sys -> len + 64 <= 2 ^ 64 ->
  p mod 32 <> 0 -> off + d < len -> copied_pointer sys p len off d = Ok (q, f) ->
  exists b, f = Some b /\ inside b q 1.
Proof.
  intros sys p len off d q f S Hl Hp Ho E. unfold copied_pointer in E.
  destruct (copy_from_unaligned sys p len) as [(a & g)| | |] eqn:F; cbn [bind fst snd] in E; try discriminate.
  injection E as <- <-. pose proof (C48_unaligned_copy sys p len a g S Hl F) as (_ & G).
  unfold copy_from_unaligned in F. destruct (p mod 32 =? 0) eqn:P; [lia|].
  destruct (aligned_alloc sys 32 len) as [[b|]| | |]; cbn [bind] in F; try discriminate. injection F as <- <-.
  exists b. split; auto. destruct G as (_ & G). unfold inside in *. lia.
Qed.
Print Assumptions C48_unaligned_pointer_refuted.

Example C48_example :
  allocate generous 24 12 5 = Ok (Block 0 64 32) /\
  initialize_entries (fun a s => Some 4096) 8 16 7 = Ok (Block 4096 128 8, 4208) /\
  copy_from_unaligned (fun a s => Some 4096) 33 10 = Ok (4096, Some (Block 4096 32 32)) /\
  copied_pointer (fun a s => Some 4096) 33 40 8 16 = Ok (4120, Some (Block 4096 64 32)) /\
  max_size 8 = 536870911.
Proof. vm_compute. auto. Qed.
