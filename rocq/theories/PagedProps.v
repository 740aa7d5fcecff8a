(* C26: paged keeps live pages disjoint and paged_vecvec answers as a list of lists. *)
From Verif Require Import Base FlatModel FlatSpec MmModel PagedModel PagedSpec PagedProofs.

(* Any history that respects the documented preconditions gives the answers of a list of lists, and every
   bucket then reads back as the specification's. Partial: containers of 2^16 elements and more
   (C26_truncates_refuted) and iterating over an empty paged_vecvec (C26_empty_refuted) are left out. *)
Theorem C26_paged_vecvec_partial : forall (A : Type) (dflt : A) (lmin lw : nat),
  1 <= lmin <= 15 -> 1 <= lw <= 2 ^ lmin ->
  forall ops l outs, shist A (pv_spec A) [] ops = Some (l, outs) ->
  exists m, hist A (pv_step A dflt lmin lw) (pv_new A lmin) ops = Ok (m, outs) /\
    map (fun k => pv_bucket A m k) (seq 0 (length l)) = map Ok l.
Proof. exact pv_history. Qed.
Print Assumptions C26_paged_vecvec_partial.

Theorem C26_disjoint : forall (A : Type) (dflt : A) (lmin lw : nat),
  1 <= lmin <= 15 -> 1 <= lw <= 2 ^ lmin ->
  forall ops l outs m, shist A (pv_spec A) [] ops = Some (l, outs) ->
  hist A (pv_step A dflt lmin lw) (pv_new A lmin) ops = Ok (m, outs) ->
  (forall k x, nth_error (pv_idx m) k = Some x -> isz x <= ic x /\ ib x + ic x <= length (pg_data (pv_pg m))) /\
  forall j k x y p, nth_error (pv_idx m) j = Some x -> nth_error (pv_idx m) k = Some y -> j <> k ->
    ib x <= p < ib x + ic x -> ib y <= p < ib y + ic y -> False.
Proof. exact pv_disjoint. Qed.
Print Assumptions C26_disjoint.

(* pages are freed and used again *)
Definition paged_ops : list (pv_op nat) :=
  [PEmplace [1;2;3]; PEmplace [4;5]; PPush 1 6; PPush 1 7; PPush 1 8; PEmplaceEmpty; PInsert 1 [9;10;11;12;13];
   PBInsert 0 1 20; PBInsert 0 0 21; PAt 2; PResize 2; PAll; PResize 4; PPush 3 30; PEmplace [31;32;33]; PSet 0 2 22;
   PGet 0 2; PBucketAt 3 0; PBucketAt 3 1; PAt 9; PFront; PBack; PSize; PAll].
Example C26_paged_case :
  shist nat (pv_spec nat) [] paged_ops =
    Some ([[21;1;22;2;3]; [9;10;11;12;13]; []; [30]; [31;32;33]],
      [XNone; XNone; XNone; XNone; XNone; XNone; XNone; XNone; XNone; XList [4;5;6;7;8]; XNone;
       XAll [[21;1;20;2;3]; [9;10;11;12;13]]; XNone; XNone; XNone; XNone; XVal 22; XVal 30; XThrow; XThrow;
       XList [21;1;22;2;3]; XList [31;32;33]; XNum 5; XAll [[21;1;22;2;3]; [9;10;11;12;13]; []; [30]; [31;32;33]]]) /\
  match hist nat (pv_step nat 0 1 1) (pv_new nat 1) paged_ops with
  | Ok (m, _) => pv_idx m = [Ix 26 5 8; Ix 18 5 8; Ix 0 0 0; Ix 4 1 2; Ix 0 3 4] /\ length (pg_data (pv_pg m)) = 34
  | _ => False
  end.
Proof. split; [vm_compute; reflexivity|]. vm_compute. split; reflexivity. Qed.

(* A bucket of 2^15 elements is full: one more element throws and leaves everything as it was. *)
Example C26_full_case : forall xs : list nat, N.of_nat (length xs) = 32768%N ->
  pv_spec nat [xs] (PPush 0 7) = Some ([xs], XThrow).
Proof.
  intros xs H. cbn [pv_spec nth length]. unfold guard, pfits, page_max.
  destruct (N.leb_spec (N.of_nat (length xs + 1)) 32768); [lia|]. reflexivity.
Qed.

(* emplace_back of 2^16 elements or more cuts the size to 16 bits and copies past the page *)
Theorem C26_truncates_refuted : forall (A : Type) (dflt : A) (lmin : nat), 1 <= lmin <= 15 ->
  forall xs r, (N.of_nat (length xs) = 65536 + r)%N -> (r <= page_max)%N ->
  pv_emplace A dflt lmin (pv_new A lmin) xs = UB.
Proof. exact (fun A dflt lmin H => emplace_cut A dflt lmin 1 H (conj (le_n 1) (pow_pos lmin 1 H (conj (le_n 1) (one_le_pow lmin)) lmin))). Qed.
Print Assumptions C26_truncates_refuted.
Example C26_truncates_case : (N.of_nat (length (repeat 1 (N.to_nat 65537))) = 65536 + 1)%N /\ (1 <= page_max)%N.
Proof. split; [rewrite repeat_length; lia|unfold page_max; lia]. Qed.

(* a range-for over an empty paged_vecvec throws instead of doing nothing *)
Theorem C26_empty_refuted : forall (A : Type) (dflt : A) (lmin lw : nat),
  pv_step A dflt lmin lw (pv_new A lmin) PAll = Ok (pv_new A lmin, XThrow).
Proof. exact (fun A dflt lmin lw => eq_refl). Qed.
Print Assumptions C26_empty_refuted.
