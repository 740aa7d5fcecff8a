(* What the flat containers mean: lists of lists, nested lists, matrices.
   Each specification gives, for a state and an operation, the new state and the answer, or None if
   the operation is called outside its precondition. *)
From Verif Require Import Base FlatModel.

Section Spec.
Variable A : Type.
Variable dflt : A.
Notation out := (vout A).

Definition guard (c : bool) {B} (x : B) : option B := if c then Some x else None.

(* ---- vecvec: a list of lists ---- *)
Definition vv_spec (l : list (list A)) (o : vv_op A) : option (list (list A) * out) :=
  match o with
  | VEmplace xs => Some (l ++ [xs], XNone)
  | VAddSized n => Some (l ++ [repeat dflt n], XNone)
  (* shrinking only when the removed buckets are empty *)
  | VResize n => guard (length (concat (skipn n l)) =? 0)
                   (firstn n l ++ repeat [] (n - length l), XNone)
  | VClear => Some ([], XNone)
  | VPush k x => guard (k <? length l) (upd k (nth k l [] ++ [x]) l, XNone)
  | VGrow k n x => guard (k <? length l)
      (if n <? length (nth k l []) then (l, XThrow)
       else (upd k (nth k l [] ++ repeat x (n - length (nth k l []))) l, XNone))
  | VSet k i x => guard (i <? length (nth k l [])) (upd k (upd i x (nth k l [])) l, XNone)
  | VGet k i => match nth_error (nth k l []) i with Some x => Some (l, XVal x) | None => None end
  | VBucketAt k i => guard (k <? length l)
      (match nth_error (nth k l []) i with Some x => (l, XVal x) | None => (l, XThrow) end)
  | VBucket k | VCBucket k => guard (k <? length l) (l, XList (nth k l []))
  | VBucketSize k => guard (k <? length l) (l, XNum (length (nth k l [])))
  (* every key but size() itself *)
  | VAt k => guard (negb (k =? length l))
      (match nth_error l k with Some b => (l, XList b) | None => (l, XThrow) end)
  | VFront => match l with b :: _ => Some (l, XList b) | [] => None end
  | VBack => match rev l with b :: _ => Some (l, XList b) | [] => Some (l, XThrow) end
  | VSize => Some (l, XNum (length l))
  | VAll => Some (l, XAll l)
  end.

(* ---- fws_multimap: the finished keys' lists, the elements of the current key, finished ---- *)
Definition fstate := (list (list A) * list A * bool)%type.
Definition fw_spec (s : fstate) (o : fw_op A) : option (fstate * out) :=
  let '(ks, cur, fin) := s in
  match o with
  | FPush x => guard (negb fin) ((ks, cur ++ [x], fin), XNone)
  | FFinishKey => guard (negb fin) ((ks ++ [cur], [], fin), XNone)
  (* with no element behind the last finished key *)
  | FFinishMap => guard (negb fin && (length cur =? 0)) ((ks, [], true), XNone)
  | FCurrentKey => guard (negb fin) (s, XNum (length ks))
  (* while building: every finished key but the last *)
  | FGet k => guard (if fin then k <? length ks else k + 1 <? length ks) (s, XList (nth k ks []))
  | FAll => guard fin (s, XAll ks)
  | FIndexSize => guard fin (s, XNum (length ks + 1))
  | FDataSize => Some (s, XNum (length (concat ks) + length cur))
  end.

(* ---- nvec: a list of nested containers, all of nesting depth N ---- *)
Fixpoint depth (n : nat) (c : nest A) {struct c} : Prop :=
  match n, c with
  | 1, Leaf _ => True
  | S (S n' as m), Node ns => (fix all l := match l with [] => True | c :: l => depth m c /\ all l end) ns
  | _, _ => False
  end.
(* the container at a path *)
Fixpoint sub (c : nest A) (path : list nat) : option (nest A) :=
  match path with
  | [] => Some c
  | i :: path => match c with
      | Node ns => match nth_error ns i with Some c => sub c path | None => None end
      | Leaf _ => None
      end
  end.
(* the elements of an innermost container *)
Definition elems (c : nest A) : list A := match c with Leaf xs => xs | Node _ => [] end.
Definition width (c : nest A) : nat := match c with Leaf xs => length xs | Node ns => length ns end.

(* ---- flat_matrix: number of rows, number of columns, the rows ---- *)
Definition mstate := (nat * nat * list (list A))%type.
(* resize keeps the elements in row-major order, and fills up with default elements *)
Definition m_resize (r c : nat) (rows : list (list A)) : list (list A) :=
  map (fun i => map (fun j => nth (c * i + j) (concat rows) dflt) (seq 0 c)) (seq 0 r).
Definition fm_spec (s : mstate) (o : fm_op A) : option (mstate * out) :=
  let '(r, c, rows) := s in
  match o with
  | MResize r' c' => guard ((r' <? W32) && (c' <? W32) && (r' * c' <? W32))%N
      ((N.to_nat r', N.to_nat c', m_resize (N.to_nat r') (N.to_nat c') rows), XNone)
  | MMake r' c' x => guard ((r' <? W32) && (c' <? W32) && (r' * c' <? W32))%N
      ((N.to_nat r', N.to_nat c', repeat (repeat x (N.to_nat c')) (N.to_nat r')), XNone)
  | MSet i j x => guard ((N.to_nat i <? r) && (N.to_nat j <? c))
      ((r, c, upd (N.to_nat i) (upd (N.to_nat j) x (nth (N.to_nat i) rows [])) rows), XNone)
  | MGet i j => guard ((N.to_nat i <? r) && (N.to_nat j <? c))
      (s, XVal (nth (N.to_nat j) (nth (N.to_nat i) rows []) dflt))
  | MAt i j => guard (N.to_nat j <? c)
      (s, if N.to_nat i <? r then XVal (nth (N.to_nat j) (nth (N.to_nat i) rows []) dflt) else XThrow)
  | MReset x => Some ((r, c, repeat (repeat x c) r), XNone)
  end.

(* histories inside the preconditions *)
Fixpoint shist {S O} (spec : S -> O -> option (S * out)) (s : S) (ops : list O) : option (S * list out) :=
  match ops with
  | [] => Some (s, [])
  | o :: ops => match spec s o with
      | Some (s, x) => match shist spec s ops with Some (s, xs) => Some (s, x :: xs) | None => None end
      | None => None
      end
  end.
End Spec.
