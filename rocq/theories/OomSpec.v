(* What the containers promise when the allocator runs out of memory. *)
From Verif Require Import Base FlatModel FlatSpec MmModel MmSpec PagedModel PagedSpec OomModel.

Section History.
Context {S O X : Type}.
Variable spec : S -> O -> option (S * X).       (* without failures; None: outside the precondition *)
Variable after : S -> O -> nat -> option S.      (* the state a bad_alloc at that point leaves; None: nothing is promised *)
(* every call is within its precondition, whatever the calls before it did *)
Fixpoint legal (s : S) (c : client O X) : bool :=
  match c with
  | Stop => true
  | Call o f next =>
      match spec s o with
      | None => false
      | Some (s', x) =>
          legal s' (next (Some x)) &&
          match f with
          | None => true
          | Some n => match after s o n with Some s'' => legal s'' (next None) | None => false end
          end
      end
  end.
(* the answers are those of the specification: a call that answers has done all of its work, a call that threw
   bad_alloc has left the promised state *)
Fixpoint explains (s : S) (t : list (O * failure * option X)) : Prop :=
  match t with
  | [] => True
  | (o, f, Some x) :: t => exists s', spec s o = Some (s', x) /\ explains s' t
  | (o, f, None) :: t => exists n s', f = Some n /\ after s o n = Some s' /\ explains s' t
  end.
End History.
(* the calls that did not throw bad_alloc, and their answers *)
Fixpoint kept {O X} (t : list (O * failure * option X)) : list O :=
  match t with
  | (o, _, Some _) :: t => o :: kept t
  | _ :: t => kept t
  | [] => []
  end.
Fixpoint answers {O X} (t : list (O * failure * option X)) : list X :=
  match t with [] => [] | (_, _, Some x) :: t => x :: answers t | _ :: t => answers t end.

(* nothing has changed *)
Definition unchanged {S O} (s : S) (o : O) (n : nat) : option S := Some s.

Section Spec.
Variable A : Type.
Variable dflt : A.
(* vecvec: the buckets, and elements that belong to no bucket yet *)
Definition wstate := (list (list A) * list A)%type.
(* the next bucket that is added at the end takes up the stray elements *)
Definition vvo_spec (s : wstate) (o : vvo_op A) : option (wstate * vout A) :=
  let '(l, t) := s in
  match o with
  | WOp (VEmplace xs) | WInit xs => Some ((l ++ [t ++ xs], []), XNone)
  | WOp (VAddSized n) => Some ((l ++ [t ++ repeat dflt n], []), XNone)
  | WOp (VResize n) => guard (length (concat (skipn n l)) =? 0)
      (if n <=? length l then (firstn n l, t) else (l ++ t :: repeat [] (n - length l - 1), []), XNone)
  | WOp VClear => Some (([], []), XNone)
  | WOp o => match vv_spec A dflt l o with Some (l', x) => Some ((l', t), x) | None => None end
  end.
Definition vvo_after (s : wstate) (o : vvo_op A) (n : nat) : option wstate :=
  let '(l, t) := s in
  match o with
  (* the bucket is missing, its elements are there *)
  | WOp (VEmplace xs) => Some (l, if n =? 2 then t ++ xs else t)
  | WOp (VAddSized k) => Some (l, if n =? 2 then t ++ repeat dflt k else t)
  (* the bucket is there, its elements are missing *)
  | WInit _ => guard (negb (n =? 2)) s
  | _ => Some s
  end.
(* a failure after which a vecvec is as it was *)
Definition vvo_mild (s : list (list A)) (o : vvo_op A) (n : nat) : option (list (list A)) :=
  match o with
  | WOp (VEmplace _) | WOp (VAddSized _) | WInit _ => guard (negb (n =? 2)) s
  | _ => Some s
  end.
(* a vecvec as a list of lists *)
Definition vvl_spec (l : list (list A)) (o : vvo_op A) : option (list (list A) * vout A) :=
  match o with WInit xs => vv_spec A dflt l (VEmplace xs) | WOp o => vv_spec A dflt l o end.

(* mutable_fws_multimap: erase(key) has removed the elements although it throws *)
Definition mmo_after (s : bstate A) (o : mm_op A) (n : nat) : option (bstate A) :=
  match o with
  | BEraseKey k => if n =? 1 then Some (upd k [] (fst s), snd s + length (nth k (fst s) [])) else Some s
  | _ => Some s
  end.
(* position p of the elements is part of a bucket, or of a bucket that can be used again *)
Definition owned (m : mm A) (p : nat) : bool :=
  existsb (fun x => (ib x <=? p) && (p <? ib x + ic x)) (mm_index m ++ concat (mm_free m)).

(* flat_matrix: the matrix, and whether a resize has failed since its size was last set. Until the size is set again,
   nothing is promised about its cells *)
Definition fmo_spec (s : mstate A * bool) (o : fm_op A) : option (mstate A * bool * vout A) :=
  let '(a, broken) := s in
  let r := match fm_spec A dflt a o with Some (a', x) => Some (a', false, x) | None => None end in
  match o with
  | MResize _ _ | MMake _ _ _ => r
  | _ => if broken then None else r
  end.
Definition fmo_after (s : mstate A * bool) (o : fm_op A) (n : nat) : option (mstate A * bool) :=
  match o with MResize _ _ => Some (fst s, true) | _ => Some s end.
(* nvec: the containers whose emplace_back met no failure *)
Definition survivors (cs : list (nest A * failure)) : list (nest A) :=
  map fst (filter (fun cf => match snd cf with None => true | Some _ => false end) cs).
End Spec.
Arguments survivors {A}.
