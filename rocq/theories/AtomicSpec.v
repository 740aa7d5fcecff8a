(* Sequential meaning of the concurrent operations. *)
From Verif Require Import Base BitModel BitSpec AtomicModel.

(* executing the logged calls one after the other, from cell value x to y: each returns the value
   it found and leaves op of it and its argument. The log is latest first. *)
Inductive sequential (op : Z -> Z -> Z) (x : Z) : list (Z * Z) -> Z -> Prop :=
| seq_nil : sequential op x [] x
| seq_call log y v : sequential op x log y -> sequential op x ((v, y) :: log) (op y v).

(* results of finished get_next calls, in the order the calls took effect *)
Definition handed_out (s : gstate) : list nat :=
  flat_map (fun p => match snd p with Some i => [i] | None => [] end) (rev (g_log s)).
(* set bits of l at start or later, increasing *)
Definition bits_from (l : list bool) (start : nat) : list nat :=
  filter (fun i => start <=? i) (set_indices l).

(* all calls of all threads *)
Definition all_calls {A} (c : list (list A)) : list A := concat c.

(* the bits behind the end of the vector, in its last block, are 0 *)
Definition unused_bits_zero (v : bitvec) : Prop :=
  forall i, v_size v <= i -> N.testbit (nth (i / 64) (v_blocks v) 0%N) (N.of_nat (i mod 64)) = false.

(* operations after which unused bits are 0 if they were before: all but one_out, max, ~, << and
   shrinking *)
Definition keeps_unused_zero (st : list (list bool)) (o : vop) : bool :=
  match o with
  | VOneOut _ | VMax _ _ | VAdopt _ _ _ | VNot _ _ | VShl _ _ => false
  | VResize r n => match nth_error st r with Some l => length l <=? n | None => false end
  | VSetStr r s => match nth_error st r with Some l => length l <=? length s | None => false end
  | _ => true
  end.
Fixpoint all_keep (st : list (list bool)) (ops : list vop) : bool :=
  match ops with
  | [] => true
  | o :: ops => keeps_unused_zero st o && match vspec st o with Some (st, _) => all_keep st ops | None => false end
  end.
