(* What string and cstring mean: every object holds a character sequence, owned or viewed. The state of the
   specification has the external buffers and, for every object, its sequence and whether it is a view; None
   stands for an object that was moved from: it may be assigned to or destroyed, its contents are not known. *)
From Verif Require Import Base FlatModel FlatSpec StrModel.

Definition obj := option (str * bool).
Definition sstate := (list str * list obj)%type.
(* lexicographic order of sequences *)
Fixpoint lex_lt (a b : str) : bool :=
  match a, b with
  | [], [] => false | [], _ :: _ => true | _ :: _, [] => false
  | x :: a, y :: b => if (x =? y)%N then lex_lt a b else (x <? y)%N
  end.
Fixpoint same (a b : str) : bool :=
  match a, b with [], [] => true | x :: a, y :: b => (x =? y)%N && same a b | _, _ => false end.
Fixpoint prefix (a b : str) : bool :=
  match a, b with [], _ => true | x :: a, y :: b => (x =? y)%N && prefix a b | _, [] => false end.
Definition suffix (a b : str) : bool := prefix (rev a) (rev b).

Definition piece (s : str) (off len : nat) : option str :=
  if off + len <=? length s then Some (firstn len (skipn off s)) else None.
Definition held (t : sstate) (i : nat) : option (str * bool) :=
  match nth_error (snd t) i with Some (Some x) => Some x | _ => None end.
Definition arg_of (t : sstate) (a : src) : option str :=
  match a with
  | SLit s => Some s
  | SExt e off len => match nth_error (fst t) e with Some s => piece s off len | None => None end
  | SStr j off len => match held t j with Some (s, _) => piece s off len | None => None end
  end.
Definition u32 (s : str) : bool := (N.of_nat (length s) <? W32)%N.
Definition has (t : sstate) (i : nat) : bool := i <? length (snd t).
Definition become_obj (t : sstate) (i : nat) (x : obj) : sstate := (fst t, upd i x (snd t)).
Definition set_obj (t : sstate) (i : nat) (c : bool) (s : str) (v : bool) : option (sstate * sout) :=
  guard (has t i && c && u32 s) (become_obj t i (Some (s, v)), YNone).
(* may the argument be read while object i is being assigned? not if it is a piece of what object i itself owns; a piece of
   what object i only views stays where it is *)
Definition viewing (t : sstate) (i : nat) : bool := match held t i with Some (_, v) => v | None => false end.
Definition apart (t : sstate) (i : nat) (a : src) : bool :=
  match a with SStr j _ _ => negb (i =? j) || viewing t j | _ => true end.

Section Spec.
Variable lim : nat.
(* short sequences with an embedded NUL are outside the precondition, see C21_embedded_nul_refuted *)
Definition storable (s : str) : bool := (lim <? length s) || negb (existsb (N.eqb 0) s).
Definition str_spec (t : sstate) (o : sop) : option (sstate * sout) :=
  match o with
  | SNew => Some ((fst t, snd t ++ [Some ([], false)]), YNone)
  | SBuf s => Some ((fst t ++ [s], snd t), YNone)
  | SOwn i a => match arg_of t a with Some s => set_obj t i (storable s && apart t i a) s false | None => None end
  | SNon i e off len => match arg_of t (SExt e off len) with
                        | Some s => set_obj t i (storable s) s (lim <? length s)
                        | None => None end
  (* moving an object onto itself does nothing *)
  | SMove i j => match nth_error (snd t) j with
                 | Some y => guard (has t i) (if i =? j then t else become_obj (become_obj t i y) j None, YNone)
                 | None => None end
  | SCopy i j => match held t j with
                 | Some (s, v) => if i =? j then Some (t, YNone) else set_obj t i (storable s) s v
                 | None => None end
  | SAssign i j => match held t j with
                   | Some (s, v) => if i =? j then Some (t, YNone) else set_obj t i (storable s) s false
                   | None => None end
  (* a view of a long string that owns its characters would dangle once that string changes; and assigning a
     short view to itself is excluded, see C21_view_self_refuted *)
  | SAssignView i j => match held t j with
                       | Some (s, v) => set_obj t i (storable s && (if i =? j then v else v || (length s <=? lim))) s v
                       | None => None end
  | SErase i pos n => match held t i with
                      | Some (s, v) => set_obj t i (pos + n <=? length s) (firstn pos s ++ skipn (pos + n) s) false
                      | None => None end
  | SWrite i p c => match held t i with
                    | Some (s, v) => set_obj t i ((p <? length s) && negb v && negb (c =? 0)%N) (upd p c s) false
                    | None => None end
  | SDestroy i => set_obj t i true [] false
  | SView i => match held t i with Some (s, _) => Some (t, YStr s) | None => None end
  | SSize i => match held t i with Some (s, _) => Some (t, YNum (length s)) | None => None end
  | SEq i j => match held t i, held t j with Some (a, _), Some (b, _) => Some (t, YBool (same a b)) | _, _ => None end
  | SLt i j => match held t i, held t j with Some (a, _), Some (b, _) => Some (t, YBool (lex_lt a b)) | _, _ => None end
  | SStarts i a => match held t i, arg_of t a with Some (b, _), Some s => guard (u32 s) (t, YBool (prefix s b)) | _, _ => None end
  | SEnds i a => match held t i, arg_of t a with Some (b, _), Some s => guard (u32 s) (t, YBool (suffix s b)) | _, _ => None end
  end.
End Spec.

(* cstring: any characters; lengths below 2^31 *)
Definition i31 (s : str) : bool := (N.of_nat (length s) <? 2147483648)%N.
Definition owns_block (x : obj) : bool := match x with Some (s, v) => negb v && (15 <? length s) | None => false end.
Definition cstr_spec (t : sstate) (o : cop) : option (sstate * sout) :=
  match o with
  | CNew => Some ((fst t, snd t ++ [Some ([], false)]), YNone)
  | CBuf s => Some ((fst t ++ [s], snd t), YNone)
  | COwn i a => match arg_of t a with Some s => set_obj t i (i31 s && apart t i a) s false | None => None end
  | CNon i e off len => match arg_of t (SExt e off len) with Some s => set_obj t i true s true | None => None end
  (* moving into an object that owns a block leaks it, and moving an object onto itself loses its contents:
     see C22_move_leaks_refuted and C22_self_move_refuted *)
  | CMove i j => match nth_error (snd t) i, nth_error (snd t) j with
                 | Some x, Some y => guard (negb (i =? j) && negb (owns_block x)) (become_obj (become_obj t i y) j None, YNone)
                 | _, _ => None end
  (* copying an object onto itself is excluded, see C22_self_assign_refuted *)
  | CCopy i j => match held t j with Some (s, v) => set_obj t i (negb (i =? j) && i31 s) s v | None => None end
  | CAssign i j => match held t j with Some (s, v) => set_obj t i (negb (i =? j) && i31 s) s false | None => None end
  | CAssignView i j => match held t j with Some (s, v) => set_obj t i v s true | None => None end
  | CWrite i p c => match held t i with
                    | Some (s, v) => set_obj t i ((p <? length s) && negb v) (upd p c s) false
                    | None => None end
  | CDestroy i => set_obj t i true [] false
  | CView i => match held t i with Some (s, _) => Some (t, YStr s) | None => None end
  | CStr i => match held t i with Some (s, v) => guard (negb v) (t, YStr (s ++ [0%N])) | None => None end
  | CSize i => match held t i with Some (s, _) => Some (t, YNum (length s)) | None => None end
  | CEq i j => match held t i, held t j with Some (a, _), Some (b, _) => Some (t, YBool (same a b)) | _, _ => None end
  | CLt i j => match held t i, held t j with Some (a, _), Some (b, _) => Some (t, YBool (lex_lt a b)) | _, _ => None end
  end.

Section SRun.
Variable O : Type.
Variable spec : sstate -> O -> option (sstate * sout).
Fixpoint srun (t : sstate) (ops : list O) : option (sstate * list sout) :=
  match ops with
  | [] => Some (t, [])
  | o :: ops => match spec t o with
                | Some (t, x) => match srun t ops with Some (t, xs) => Some (t, x :: xs) | None => None end
                | None => None end
  end.
End SRun.
