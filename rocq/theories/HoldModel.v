(* Model of include/cista/memory_holder.h: wrapped<T>, a handle to a T that lives in a memory it holds
   (mapped file, buffer, byte vector) or on the heap (raw::unique_ptr<T>, containers/unique_ptr.h).
   One T per memory: memory and object have the same number. Not modelled: what the T itself owns. *)
From Verif Require Import Base.

Inductive kind := Heap | Mmap | Buffer | Bytes.
Record cell := Cell { mem : bool;     (* the memory has not been released *)
                      obj : bool }.   (* the T in it has not been destroyed *)
(* 42-43 mem_ (None: holds no memory) and el_ with its self_allocated_ *)
Record wrapped := Wr { w_mem : option (kind * nat); w_el : option nat; w_self : bool }.
Record world := World { cells : list cell; handles : list wrapped }.
Definition empty : wrapped := Wr None None false.

Definition nth_ {A} (l : list A) (i : nat) : res A := match nth_error l i with Some x => Ok x | None => UB end.
Definition put (w : world) (i : nat) (h : wrapped) : world := World (cells w) (upd i h (handles w)).

(* destructor or overwriting of mem_: the memory is released; releasing it twice is undefined *)
Definition release (cs : list cell) (m : option (kind * nat)) : res (list cell) :=
  match m with
  | None => Ok cs
  | Some (_, k) => let* c := nth_ cs k in if mem c then Ok (upd k (Cell false (obj c)) cs) else UB
  end.
(* el->~T() *)
Definition destroy (cs : list cell) (k : nat) : res (list cell) :=
  let* c := nth_ cs k in if mem c && obj c then Ok (upd k (Cell true false) cs) else UB.
(* unique_ptr.h:48-54: delete el_ if self allocated *)
Definition el_reset (cs : list cell) (el : option nat) (self : bool) : res (list cell) :=
  match self, el with
  | true, Some k => let* cs := destroy cs k in release cs (Some (Heap, k))
  | _, _ => Ok cs
  end.

Inductive op :=
| New                    (* 16 wrapped() *)
| Make (c : kind)        (* 17-19 wrapped(mem, pointer), 20 wrapped(raw::unique_ptr<T>) for Heap *)
| MoveNew (j : nat)      (* implicit move constructor *)
| Move (i j : nat)       (* implicit move assignment *)
| Destroy (i : nat)      (* implicit destructor; an empty handle takes its place *)
| Reset (i : nat)        (* 22-29 *)
| Use (i : nat)          (* 36-41 access to the T *)
| IsNull (i : nat).      (* 31-33, 35 *)
Inductive ans := ANone | AObj (k : nat) | ABool (b : bool).

Definition step (w : world) (o : op) : res (world * ans) :=
  match o with
  | New => Ok (World (cells w) (handles w ++ [empty]), ANone)
  | Make c =>
      let k := length (cells w) in
      let h := match c with Heap => Wr None (Some k) true | _ => Wr (Some (c, k)) (Some k) false end in
      Ok (World (cells w ++ [Cell true true]) (handles w ++ [h]), ANone)
  | MoveNew j =>
      let* h := nth_ (handles w) j in
      Ok (World (cells w) (upd j empty (handles w) ++ [h]), ANone)
  | Move i j => (* memberwise: mem_, then el_ *)
      let* a := nth_ (handles w) i in
      let* b := nth_ (handles w) j in
      let* cs := release (cells w) (w_mem a) in
      let* cs := el_reset cs (w_el a) (w_self a) in
      Ok (World cs (upd j empty (upd i b (handles w))), ANone)
  | Destroy i => (* el_, then mem_ *)
      let* a := nth_ (handles w) i in
      let* cs := el_reset (cells w) (w_el a) (w_self a) in
      let* cs := release cs (w_mem a) in
      Ok (World cs (upd i empty (handles w)), ANone)
  | Reset i =>
      let* a := nth_ (handles w) i in
      match w_el a with
      | None => UB
      | Some k =>
          let* cs := destroy (cells w) k in
          match w_mem a with
          | Some (Buffer, _) | Some (Bytes, _) =>
              let* cs := release cs (w_mem a) in
              Ok (World cs (upd i (Wr None (w_el a) (w_self a)) (handles w)), ANone)
          | _ => Ok (World cs (handles w), ANone)
          end
      end
  | Use i =>
      let* a := nth_ (handles w) i in
      match w_el a with
      | None => UB
      | Some k => let* c := nth_ (cells w) k in if mem c && obj c then Ok (w, AObj k) else UB
      end
  | IsNull i =>
      let* a := nth_ (handles w) i in
      Ok (w, ABool (match w_el a with None => true | Some _ => false end))
  end.

Fixpoint run (w : world) (ops : list op) : res (world * list ans) :=
  match ops with
  | [] => Ok (w, [])
  | o :: ops => let* r := step w o in let* r' := run (fst r) ops in Ok (fst r', snd r :: snd r')
  end.
