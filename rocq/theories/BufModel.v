(* include/cista/buffer.h: buffers of bytes that own a block of memory. The heap maps addresses to blocks of bytes, of which those that were never
   written are unknown. Simplified: the address that malloc returns is part of the operation that allocates (0 is null); variables are numbered, and
   one that is not constructed, or whose lifetime is over, is None; bytes are numbers. *)
From Verif Require Import Base.
Local Open Scope N_scope.

Notation addr := N (only parsing).
Notation bytes := (list (option N)) (only parsing).
Definition heap := list (addr * bytes).
(* buffer.h 81-82: the members buf_ and size_ *)
Record hd := Hd { buf : addr; size : nat }.
Record st := St { blocks : heap; vars : list (option hd) }.

Definition blk (h : heap) (a : addr) : option bytes := match find (fun b => fst b =? a) h with Some b => Some (snd b) | None => None end.
Definition put (h : heap) (a : addr) (b : bytes) : heap := (a, b) :: filter (fun b => negb (fst b =? a)) h.
(* std::free: freeing what is not allocated is UB *)
Definition free_ (h : heap) (a : addr) : res heap := match blk h a with Some _ => Ok (filter (fun b => negb (fst b =? a)) h) | None => UB end.

(* 69-72 reset *)
Definition null : hd := Hd 0 0.
(* 74-79 free: only if there is a block *)
Definition free (h : heap) (x : hd) : res (heap * hd) := if buf x =? 0 then Ok (h, x) else let* h := free_ h (buf x) in Ok (h, null).
(* 14-17 buffer(size): malloc returned a; verify throws for null *)
Definition make (h : heap) (n : nat) (a : addr) : option (heap * hd) := if a =? 0 then None else Some (put h a (repeat None n), Hd a n).
(* std::memcpy(buf_, str, n) *)
Definition memcpy (h : heap) (a : addr) (src : list N) (n : nat) : res heap :=
  match blk h a with
  | Some b => if (n <=? length src)%nat && (n <=? length b)%nat then Ok (put h a (map Some (firstn n src) ++ skipn n b)) else UB
  | None => if (n =? 0)%nat then Ok h else UB
  end.
(* std::strlen: reading past the end of the source is UB *)
Fixpoint strlen (s : list N) : res nat := match s with [] => UB | c :: s => if c =? 0 then Ok 0%nat else let* n := strlen s in Ok (S n) end.
(* 19-21 buffer(char const* ) and 23-25 buffer(char const*, size): as above, then copy *)
Definition from (h : heap) (s : list N) (n : nat) (a : addr) : res (option (heap * hd)) :=
  match make h n a with Some (h, x) => let* h := memcpy h (buf x) s (size x) in Ok (Some (h, x)) | None => Ok None end.
(* 64-67 operator[] and data(): not checked by the code, outside of the block is UB; so is reading a byte that was never written *)
Definition get (h : heap) (x : hd) (i : nat) : res N :=
  match blk h (buf x) with Some b => match nth_error b i with Some (Some c) => Ok c | _ => UB end | None => UB end.
Definition set_ (h : heap) (x : hd) (i : nat) (c : N) : res heap :=
  match blk h (buf x) with Some b => if (i <? length b)%nat then Ok (put h (buf x) (upd i (Some c) b)) else UB | None => UB end.
(* 58-62 begin() to end(): the bytes one after another *)
Fixpoint all (h : heap) (x : hd) (i n : nat) : res (list N) :=
  match n with O => Ok [] | S n => let* c := get h x i in let* l := all h x (i + 1) n in Ok (c :: l) end.

Inductive op :=
| New (v : nat) (n : nat) (a : addr) | Cstr (v : nat) (s : list N) (a : addr) | Copy (v : nat) (s : list N) (n : nat) (a : addr)
| MoveNew (v s : nat) | MoveTo (v s : nat) | Default (v : nat)
| Free (v : nat) | Reset (v : nat) | Drop (v : nat)
| Read (v i : nat) | Write (v i : nat) (c : N) | Size (v : nat) | Data (v : nat) | All (v : nat).
Inductive ans := Quiet | Threw | Num (n : N) | Bytes (l : list N).

(* a variable whose lifetime has begun; using any other is UB, and so is beginning a lifetime twice *)
Definition var (s : st) (v : nat) : res hd := match nth_error (vars s) v with Some (Some x) => Ok x | _ => UB end.
Definition dead (s : st) (v : nat) : bool := match nth_error (vars s) v with Some None => true | _ => false end.
Definition with_ (s : st) (h : heap) (v : nat) (x : option hd) : st := St h (upd v x (vars s)).
Definition made (s : st) (v : nat) (r : option (heap * hd)) : st * ans :=
  match r with Some (h, x) => (with_ s h v (Some x), Quiet) | None => (s, Threw) end.

Definition step (s : st) (o : op) : res (st * ans) :=
  let h := blocks s in
  match o with
  (* 12 buffer() *)
  | Default v => if dead s v then Ok (with_ s h v (Some null), Quiet) else UB
  | New v n a => if dead s v then Ok (made s v (make h n a)) else UB
  | Cstr v str a => if dead s v then let* n := strlen str in let* r := from h str n a in Ok (made s v r) else UB
  | Copy v str n a => if dead s v then let* r := from h str n a in Ok (made s v r) else UB
  (* 32-36 buffer(buffer&& ) *)
  | MoveNew v w => if dead s v then let* x := var s w in let s := with_ s h v (Some x) in Ok (with_ s h w (Some null), Quiet) else UB
  (* 38-49 operator=(buffer&& ): nothing for the same object; the own block is freed *)
  | MoveTo v w =>
      let* x := var s v in let* _ := var s w in
      if (v =? w)%nat then Ok (s, Quiet) else
      let* ' (h, _) := (if buf x =? 0 then Ok (h, x) else free h x) in
      let* y := var s w in
      Ok (with_ (with_ s h v (Some y)) h w (Some null), Quiet)
  | Free v => let* x := var s v in let* ' (h, x) := free h x in Ok (with_ s h v (Some x), Quiet)
  | Reset v => let* x := var s v in Ok (with_ s h v (Some null), Quiet)
  (* 27 ~buffer *)
  | Drop v => let* x := var s v in let* ' (h, _) := free h x in Ok (with_ s h v None, Quiet)
  | Read v i => let* x := var s v in let* c := get h x i in Ok (s, Num c)
  | Write v i c => let* x := var s v in let* h := set_ h x i c in Ok (with_ s h v (Some x), Quiet)
  (* 51 size, 53-56 data *)
  | Size v => let* x := var s v in Ok (s, Num (N.of_nat (size x)))
  | Data v => let* x := var s v in Ok (s, Num (buf x))
  | All v => let* x := var s v in let* l := all h x 0 (size x) in Ok (s, Bytes l)
  end.
Fixpoint run (s : st) (os : list op) : res (st * list ans) :=
  match os with [] => Ok (s, []) | o :: os => let* ' (s, a) := step s o in let* ' (s, l) := run s os in Ok (s, a :: l) end.
Definition start (n : nat) : st := St [] (repeat None n).
(* the ends of the lifetimes of all variables that are still alive *)
Fixpoint finish (s : st) (v n : nat) : res st :=
  match n with
  | O => Ok s
  | S n => let* s := (if dead s v then Ok s else let* ' (s, _) := step s (Drop v) in Ok s) in finish s (v + 1) n
  end.
