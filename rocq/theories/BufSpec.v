(* What buffers are: a value is an address together with the bytes that lie there, and it is owned by one variable at a time. *)
From Verif Require Import Base BufModel.
Local Open Scope N_scope.

(* (0, []) is the buffer without a block *)
Notation aval := (addr * bytes)%type (only parsing).
Definition nothing : addr * bytes := (0, []).
Notation avars := (list (option aval)) (only parsing).
Definition alive (vs : avars) (v : nat) : option aval := match nth_error vs v with Some (Some x) => Some x | _ => None end.
Definition unborn (vs : avars) (v : nat) : bool := match nth_error vs v with Some None => true | _ => false end.
(* malloc does not return an address that is in use *)
Definition fresh (vs : avars) (a : addr) : bool := forallb (fun x => match x with Some (b, _) => negb (b =? a) | None => true end) vs.
Fixpoint cstr (s : list N) : option (list N) := match s with [] => None | c :: s => if c =? 0 then Some [] else option_map (cons c) (cstr s) end.
Fixpoint known (b : bytes) : option (list N) := match b with [] => Some [] | Some c :: b => option_map (cons c) (known b) | None :: _ => None end.

(* Construction throws exactly if malloc returns null, and then changes nothing. *)
Definition construct (vs : avars) (v : nat) (a : addr) (b : bytes) : option (avars * ans) :=
  if unborn vs v then if a =? 0 then Some (vs, Threw) else if fresh vs a then Some (upd v (Some (a, b)) vs, Quiet) else None else None.
(* One operation; None: outside of what is claimed (use of variables that are not alive, indices outside of the buffer, reading what was never
   written, reset of a buffer that has a block). *)
Definition astep (vs : avars) (o : op) : option (avars * ans) :=
  match o with
  | Default v => if unborn vs v then Some (upd v (Some nothing) vs, Quiet) else None
  | New v n a => construct vs v a (repeat None n)
  | Cstr v s a => match cstr s with Some b => construct vs v a (map Some b) | None => None end
  | Copy v s n a => if (n <=? length s)%nat then construct vs v a (map Some (firstn n s)) else None
  | MoveNew v w => match alive vs w with Some x => if unborn vs v then Some (upd w (Some nothing) (upd v (Some x) vs), Quiet) else None | None => None end
  | MoveTo v w => match alive vs v, alive vs w with
      | Some _, Some x => Some (if (v =? w)%nat then vs else upd w (Some nothing) (upd v (Some x) vs), Quiet)
      | _, _ => None end
  | Free v => match alive vs v with Some _ => Some (upd v (Some nothing) vs, Quiet) | None => None end
  | Reset v => match alive vs v with Some (a, _) => if a =? 0 then Some (vs, Quiet) else None | None => None end
  | Drop v => match alive vs v with Some _ => Some (upd v None vs, Quiet) | None => None end
  | Read v i => match alive vs v with Some (_, b) => match nth_error b i with Some (Some c) => Some (vs, Num c) | _ => None end | None => None end
  | Write v i c => match alive vs v with Some (a, b) => if (i <? length b)%nat then Some (upd v (Some (a, upd i (Some c) b)) vs, Quiet) else None | None => None end
  | Size v => match alive vs v with Some (_, b) => Some (vs, Num (N.of_nat (length b))) | None => None end
  | Data v => match alive vs v with Some (a, _) => Some (vs, Num a) | None => None end
  | All v => match alive vs v with Some (_, b) => match known b with Some l => Some (vs, Bytes l) | None => None end | None => None end
  end.
Fixpoint arun (vs : avars) (os : list op) : option (avars * list ans) :=
  match os with
  | [] => Some (vs, [])
  | o :: os => match astep vs o with
      | Some (vs, a) => match arun vs os with Some (vs, l) => Some (vs, a :: l) | None => None end
      | None => None end
  end.

(* The variables have the values vs: each has the address and the size, and the bytes lie there; no two have the same block; and the blocks in use
   are those of the variables. *)
Record holds (s : st) (vs : avars) : Prop := Holds {
  h_len : length (vars s) = length vs;
  h_var : forall v x, nth_error vs v = Some x -> nth_error (vars s) v = Some (match x with Some (a, b) => Some (Hd a (length b)) | None => None end);
  h_blk : forall v a b, nth_error vs v = Some (Some (a, b)) -> if a =? 0 then b = [] else blk (blocks s) a = Some b;
  h_one : forall v w a b c, nth_error vs v = Some (Some (a, b)) -> nth_error vs w = Some (Some (a, c)) -> a <> 0 -> v = w;
  h_own : forall a, blk (blocks s) a <> None -> a <> 0 /\ exists v b, nth_error vs v = Some (Some (a, b)) }.
