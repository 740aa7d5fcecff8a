(* Model of containers/tuple.h: the layout, element access and the comparisons. Types are given by their
   size and alignment; sizes are unbounded. The empty tuple does not compile (max_align_of). *)
From Verif Require Import Base FlatModel.

Record ty := Ty { tsize : nat; talign : nat }.
(* 49-51 *)
Definition align_up (off a : nat) : nat :=
  let mis := off mod a in if mis =? 0 then off else off + (a - mis) mod a.
(* 37-44 max_align_of *)
Fixpoint max_align_of (ts : list ty) : nat :=
  match ts with
  | [] => 0
  | [t] => talign t
  | t :: ts => Nat.max (talign t) (max_align_of ts)
  end.
(* 46-64 get_offset *)
Fixpoint get_offset (ts : list ty) (i off : nat) : nat :=
  match ts with
  | [] => 0          (* does not compile *)
  | t :: rest =>
      let off := align_up off (talign t) in
      match i with
      | 0 => off
      | S i' =>
          let off := off + tsize t in
          match rest with
          | [] => if i =? 1 then off + tsize t else off
          | _ => get_offset rest i' off
          end
      end
  end.
(* 66-69 get_total_size *)
Definition get_total_size (ts : list ty) : nat := get_offset ts (length ts + 1) 0.

(* 184 mem_: the bytes of the storage. Objects are their bytes; writing outside the storage is UB *)
Definition storage := list N.
Definition wr (m : storage) (off : nat) (bs : list N) : res storage :=
  if off + length bs <=? length m then Ok (firstn off m ++ bs ++ skipn (off + length bs) m) else UB.
Definition rd (m : storage) (off n : nat) : res (list N) :=
  if off + n <=? length m then Ok (firstn n (skipn off m)) else UB.
(* 174-182 get_ptr and 80-97 get *)
Definition tget (ts : list ty) (m : storage) (i : nat) : res (list N) :=
  let* t := idx ts i in rd m (get_offset ts i 0) (tsize t).
Definition tset (ts : list ty) (m : storage) (i : nat) (v : list N) : res storage :=
  let* t := idx ts i in if length v =? tsize t then wr m (get_offset ts i 0) v else UB.
(* 124-135 construction from arguments: element after element, from the left; 142-161 copies and moves are the same
   for elements that are bytes *)
Fixpoint tfill (ts : list ty) (m : storage) (i : nat) (vs : list (list N)) : res storage :=
  match vs with [] => Ok m | v :: vs => let* m := tset ts m i v in tfill ts m (S i) vs end.

(* the elements' own operators; a tuple is the list of its elements *)
Section Cmp.
Variable V : Type.
Variable ltv eqv : nat -> V -> V -> bool.      (* of element type I *)
(* 257-270 lt; k elements are left *)
Fixpoint tlt (k i : nat) (a b : list V) : res bool :=
  match k with
  | 0 => Ok false
  | S k =>
      let* x := idx a i in
      let* y := idx b i in
      if ltv i x y then Ok true else if ltv i y x then Ok false else tlt k (S i) a b
  end.
(* 237-241 eq over the indices of the first tuple *)
Fixpoint teq (k i : nat) (a b : list V) : res bool :=
  match k with
  | 0 => Ok true
  | S k =>
      let* x := idx a i in
      let* y := idx b i in
      if eqv i x y then teq k (S i) a b else Ok false
  end.
Definition t_eq a b := teq (length a) 0 a b.                       (* 243-249 *)
Definition t_ne a b := let* r := t_eq a b in Ok (negb r).          (* 251-255 *)
Definition t_lt a b := tlt (length a) 0 a b.                       (* 272-276 *)
Definition t_le a b := let* r := t_lt b a in Ok (negb r).          (* 278-282 *)
Definition t_gt a b := t_lt b a.                                   (* 284-288 *)
Definition t_ge a b := let* r := t_lt a b in Ok (negb r).          (* 290-294 *)
End Cmp.
