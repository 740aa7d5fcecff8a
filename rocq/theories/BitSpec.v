(* Bit sequences: what bitset and bitvec stand for. Bit i of the sequence is element i. *)
From Verif Require Import Base BitModel.

Definition falses (n : nat) : list bool := repeat false n.
(* the number with these binary digits *)
Fixpoint value (l : list bool) : N :=
  match l with [] => 0%N | b :: l => (N.b2n b + 2 * value l)%N end.
Definition ones (l : list bool) : N := N.of_nat (length (filter (fun b => b) l)).
(* indices of the set bits, increasing *)
Definition set_indices (l : list bool) : list nat := filter (fun i => nth i l false) (seq 0 (length l)).
Definition zipb (op : bool -> bool -> bool) (a b : list bool) : list bool :=
  map (fun p => op (fst p) (snd p)) (combine a b).
(* towards index 0 / away from index 0, the length stays *)
Definition shift_down (l : list bool) (s : nat) : list bool := skipn s l ++ falses (min s (length l)).
Definition shift_up (l : list bool) (s : nat) : list bool := firstn (length l) (falses s ++ l).
Definition resized (l : list bool) (n : nat) : list bool := firstn n l ++ falses (n - length l).
Definition beqb (a b : list bool) : bool := if list_eq_dec bool_dec a b then true else false.
(* least set index not below i *)
Definition next_index (l : list bool) (i : nat) : option nat :=
  find (fun j => nth j l false) (seq i (length l - i)).

(* the search starts in the last block, that block is not the first, and it has unused bits *)
Definition dirty_search (size i : nat) : bool :=
  (64 <? size) && negb (size mod 64 =? 0) && (size / 64 =? i / 64) && (i <? size).

Section Obj.
Variable A : Type.
Definition ask (st : list A) (r : nat) : option A := nth_error st r.
Definition change (st : list A) (r : nat) (g : A -> A) : option (list A * bout) :=
  match nth_error st r with Some x => Some (upd r (g x) st, BNone) | None => None end.
Definition see (st : list A) (r : nat) (g : A -> bout) : option (list A * bout) :=
  match nth_error st r with Some x => Some (st, g x) | None => None end.
End Obj.
Arguments change {A}. Arguments see {A}.

Notation "'let?' x ':=' r 'in' k" := (match r with Some x => k | None => None end)
  (at level 200, x pattern, r at level 100, k at level 200, right associativity).
Notation "'require' c 'in' k" := (if c then k else None)
  (at level 200, c at level 100, k at level 200, right associativity).

(* bitset<n>. None: the caller broke a precondition (no such object, index behind the last block).
   Setting a bit of the last block at or behind n has no effect. *)
Definition sspec (n : nat) (st : list (list bool)) (o : sop) : option (list (list bool) * bout) :=
  match o with
  | SSet r i v => require i <? num_blocks n * 64 in change st r (fun l => upd i v l)
  | SSetStr r s => change st r (fun l => firstn n (rev s) ++ skipn (length s) l)
  | SReset r => change st r (fun _ => falses n)
  | SMax r => change st r (fun _ => repeat true n)
  | SAnd r r' => let? o := nth_error st r' in change st r (fun l => zipb andb l o)
  | SOr r r' => let? o := nth_error st r' in change st r (fun l => zipb orb l o)
  | SXor r r' => let? o := nth_error st r' in change st r (fun l => zipb xorb l o)
  | SNot r r' => let? o := nth_error st r' in change st r (fun _ => map negb o)
  | SShl r s => change st r (fun l => shift_up l s)
  | SShr r s => change st r (fun l => shift_down l s)
  | STest r i => see st r (fun l => BBool (nth i l false))
  | SCount r => see st r (fun l => BNum (ones l))
  | SAny r => see st r (fun l => BBool (existsb (fun b => b) l))
  | SStr r => see st r (fun l => BBits (rev l))
  | SEach r => see st r (fun l => BIdx (set_indices l))
  | SEq r r' => let? o := nth_error st r' in see st r (fun l => BBool (beqb l o))
  | SLt r r' => let? o := nth_error st r' in see st r (fun l => BBool (value l <? value o)%N)
  end.
Fixpoint sspec_run (n : nat) (st : list (list bool)) (ops : list sop) : option (list (list bool) * list bout) :=
  match ops with
  | [] => Some (st, [])
  | o :: ops => let? (st, x) := sspec n st o in
                let? (st, xs) := sspec_run n st ops in Some (st, x :: xs)
  end.

(* bitvec. None: broken precondition: no such object, index not below the size, operands of
   different size. Also None, although the interface allows them, are the calls of the findings in
   BitProps: shifting by the size or more, and searching from a position in a partly used last block. *)
Definition vspec (st : list (list bool)) (o : vop) : option (list (list bool) * bout) :=
  match o with
  | VResize r n => change st r (fun l => resized l n)
  | VSet r i v => let? l := nth_error st r in require i <? length l in change st r (fun l => upd i v l)
  | VSetStr r s => change st r (fun _ => rev s)
  | VZeroOut r => change st r (fun l => falses (length l))
  | VOneOut r => change st r (fun l => repeat true (length l))
  | VMax r n => change st r (fun _ => repeat true n)
  (* as many blocks of 64 bits as n bits need *)
  | VAdopt r b n => require forallb (fun x => x <? 2 ^ 64)%N b && (n <=? 64 * length b) && (64 * length b <? n + 64) in
                    change st r (fun _ => map (fun i => N.testbit (nth (i / 64) b 0%N) (N.of_nat (i mod 64))) (seq 0 n))
  | VCopy r r' => let? o := nth_error st r' in change st r (fun _ => o)
  | VAnd r r' => let? l := nth_error st r in let? o := nth_error st r' in
                 require length l =? length o in change st r (fun l => zipb andb l o)
  | VOr r r' => let? l := nth_error st r in let? o := nth_error st r' in
                require length l =? length o in change st r (fun l => zipb orb l o)
  | VXor r r' => let? l := nth_error st r in let? o := nth_error st r' in
                 require length l =? length o in change st r (fun l => zipb xorb l o)
  | VNot r r' => let? o := nth_error st r' in change st r (fun _ => map negb o)
  | VShl r s => let? l := nth_error st r in require (s <? length l) || (length l =? 0) in
                change st r (fun l => shift_up l s)
  | VShr r s => let? l := nth_error st r in require (s <? length l) || (length l =? 0) in
                change st r (fun l => shift_down l s)
  | VSize r => see st r (fun l => BNum (N.of_nat (length l)))
  | VTest r i => see st r (fun l => BBool (nth i l false))
  | VCount r => see st r (fun l => BNum (ones l))
  | VAny r => see st r (fun l => BBool (existsb (fun b => b) l))
  | VStr r => see st r (fun l => BBits (rev l))
  | VEach r => see st r (fun l => BIdx (set_indices l))
  | VNext r i => let? l := nth_error st r in require negb (dirty_search (length l) i) in
                 see st r (fun l => BOpt (next_index l i))
  | VEq r r' => let? o := nth_error st r' in see st r (fun l => BBool (beqb l o))
  | VLt r r' => let? l := nth_error st r in let? o := nth_error st r' in
                require length l =? length o in see st r (fun l => BBool (value l <? value o)%N)
  end.
Fixpoint vspec_run (st : list (list bool)) (ops : list vop) : option (list (list bool) * list bout) :=
  match ops with
  | [] => Some (st, [])
  | o :: ops => let? (st, x) := vspec st o in
                let? (st, xs) := vspec_run st ops in Some (st, x :: xs)
  end.
