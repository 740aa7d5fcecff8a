(* Model of the memory behind basic_vector, include/cista/containers/vector.h: el_, allocated_size_ and self_allocated_ of several vectors, the
   blocks that reserve() takes from malloc, and the buffers of vectors that were loaded from a file. Elements and slots are those of VecModel.
   Freeing a block twice, freeing (part of) a buffer, and reading or writing a freed block are UB. malloc succeeds. *)
From Verif Require Import Base ArithModel VecModel.

Section Vmem.
Variable A : Type.
Variable w : N.
Variable triv : bool.
Variable dflt : A.
Variables (eqA ltA : A -> A -> bool).
Notation slot := (slot A).
Notation vec := (vec A).

Inductive addr := Nil | Own (b : nat) | Buf (e : nat).   (* nullptr, a block of the heap, the place of a loaded vector in its buffer *)
Definition is_nil (a : addr) : bool := match a with Nil => true | _ => false end.
Definition same_addr (a b : addr) : bool :=
  match a, b with Nil, Nil => true | Own x, Own y => x =? y | Buf x, Buf y => x =? y | _, _ => false end.
(* 446-452; m_leak counts objects that were overwritten, as v_leak does *)
Record mvec := MV { m_el : addr; m_used : nat; m_cap : nat; m_self : bool; m_leak : nat }.
Record world := World { heap : list (option (list slot)); bufs : list (list slot); vecs : list mvec }.
Definition mnew : mvec := MV Nil 0 0 false 0.
Definition start (n : nat) : world := World [] [] (repeat mnew n).

Definition load (m : world) (a : addr) : res (list slot) :=
  match a with
  | Nil => Ok []
  | Own b => match nth_error (heap m) b with Some (Some l) => Ok l | _ => UB end
  | Buf e => match nth_error (bufs m) e with Some l => Ok l | None => UB end
  end.
Definition store (m : world) (a : addr) (l : list slot) : world :=
  match a with
  | Nil => m
  | Own b => World (upd b (Some l) (heap m)) (bufs m) (vecs m)
  | Buf e => World (heap m) (upd e l (bufs m)) (vecs m)
  end.
(* std::malloc, the new block is uninitialised *)
Definition malloc (m : world) (l : list slot) : world * addr := (World (heap m ++ [Some l]) (bufs m) (vecs m), Own (length (heap m))).
(* std::free *)
Definition free_ (m : world) (a : addr) : res world :=
  match a with
  | Nil => Ok m
  | Own b => match nth_error (heap m) b with Some (Some _) => Ok (World (upd b None (heap m)) (bufs m) (vecs m)) | _ => UB end
  | Buf _ => UB
  end.
Definition put (m : world) (r : nat) (v : mvec) : world := World (heap m) (bufs m) (upd r v (vecs m)).
Definition get (m : world) (r : nat) : res mvec := match nth_error (vecs m) r with Some v => Ok v | None => UB end.

(* the vector as VecModel has it *)
Definition seen (m : world) (v : mvec) : res vec := let* l := load m (m_el v) in Ok (V l (m_used v) (m_self v) (m_leak v)).

(* 345-382 reserve *)
Definition mreserve (m : world) (r : nat) (n : N) : res world :=
  let* v := get m r in
  let alloc := N.of_nat (m_cap v) in
  if (N.max alloc n <=? alloc)%N then Ok m else
  let next := N.to_nat (next_power_of_two w (N.max alloc n)) in
  let* old := load m (m_el v) in
  let* ' (old, new) := move_n A triv old (repeat Raw next) 0 (m_used v) in
  let* old := destroy_n A old 0 (m_used v) in
  let m := store m (m_el v) old in
  let (m, a) := malloc m new in
  let* m := if m_self v then free_ m (m_el v) else Ok m in
  Ok (put m r (MV a (m_used v) next true (m_leak v + if m_self v then lost_all A triv old else 0))).

(* 101-112 deallocate *)
Definition mdeallocate (m : world) (r : nat) : res world :=
  let* v := get m r in
  if negb (m_self v) || is_nil (m_el v) then Ok m else
  let* l := load m (m_el v) in
  let* l := destroy_n A l 0 (m_used v) in
  let* m := free_ (store m (m_el v) l) (m_el v) in
  Ok (put m r (MV Nil 0 0 false (m_leak v + lost_all A triv l))).

(* 439-444 reset; public *)
Definition mreset (m : world) (r : nat) : res world := let* v := get m r in Ok (put m r (MV Nil 0 0 false (m_leak v))).

(* Code that works on the slots of vector r where they are. *)
Definition in_place (m : world) (r : nat) (k : vec -> res (vec * out A)) : res (world * out A) :=
  let* v := get m r in
  let* s := seen m v in
  let* ' (s, x) := k s in
  if length (v_slots s) =? m_cap v
  then Ok (put (store m (m_el v) (v_slots s)) r (MV (m_el v) (v_used s) (m_cap v) (m_self v) (v_leak s)), x)
  else UB.
Definition quiet (k : vec -> res vec) (v : vec) : res (vec * out A) := let* v := k v in Ok (v, ONone).
Definition pos (k : vec -> res (vec * nat)) (v : vec) : res (vec * out A) := let* ' (v, p) := k v in Ok (v, ONum p).
(* Functions that begin with reserve(n): after mreserve, the reserve inside of VecModel's function has nothing left to do. *)
Definition growing (m : world) (r : nat) (n : N) (k : vec -> res (vec * out A)) : res (world * out A) :=
  let* m := mreserve m r n in in_place m r k.
(* used_size_ + n in size_type *)
Definition more (m : world) (r : nat) (n : nat) : res N :=
  let* v := get m r in Ok (wrapw w (N.of_nat (m_used v) + N.of_nat n)).
(* 240-253: one reserve per element *)
Fixpoint mpush_all (m : world) (r : nat) (xs : list A) : res world :=
  match xs with
  | [] => Ok m
  | x :: xs => let* n := more m r 1 in
               let* ' (m, _) := growing m r n (quiet (fun v => push_back A w triv v x)) in mpush_all m r xs
  end.
Definition look {B} (m : world) (r : nat) (k : vec -> res B) (f : B -> out A) : res (world * out A) :=
  let* v := get m r in let* s := seen m v in let* b := k s in Ok (m, f b).
Definition look2 (m : world) (r r' : nat) (k : vec -> vec -> res bool) : res (world * out A) :=
  let* v' := get m r' in let* o := seen m v' in look m r (fun s => k s o) OBool.

Definition mstep (m : world) (o : op A) : res (world * out A) :=
  match o with
  | Push r x => let* n := more m r 1 in growing m r n (quiet (fun v => push_back A w triv v x))
  | PushOwn r i =>      (* the reference dangles if the vector has moved *)
      let* v := get m r in
      let* n := more m r 1 in
      let* m := mreserve m r n in
      let* v' := get m r in
      if same_addr (m_el v) (m_el v') then in_place m r (quiet (fun v => push_back_own A w triv v i)) else UB
  | Insert r i x => let* n := more m r 1 in growing m r n (pos (fun v => insert A w triv v i x))
  | InsertN r i k x => let* n := more m r k in growing m r n (pos (fun v => insert_n A w triv v i k x))
  | InsertInput r i xs =>
      let* v := get m r in
      let* m := mpush_all m r xs in
      in_place m r (pos (fun u => let* ' (l, p) := rotate A (v_slots u) i (m_used v) (v_used u) in
                                  Ok (V l (v_used u) (v_self u) (v_leak u), p)))
  | InsertRange r i xs =>
      let* v := get m r in
      let* n := if m_used v =? 0 then Ok (N.of_nat (length xs)) else more m r (length xs) in
      growing m r n (pos (fun v => insert_range A w triv v i xs))
  | Set_ r xs =>
      let* _ := verify (N.of_nat (length xs) <=? 2 ^ w - 1)%N in
      growing m r (N.of_nat (length xs)) (quiet (fun v => set_range A w triv v xs))
  | Resize r k => growing m r (N.of_nat k) (quiet (fun v => resize A w triv v k dflt))
  | ResizeTo r k x => growing m r (N.of_nat k) (quiet (fun v => resize A w triv v k x))
  | Reserve r n => let* m := mreserve m r n in Ok (m, ONone)
  | Pop r => in_place m r (quiet (pop_back A))
  | Clear r => in_place m r (quiet (clear A))
  | Erase r i => in_place m r (pos (fun v => erase A v i))
  | EraseRange r i j => in_place m r (pos (fun v => erase_range A v i j))
  | Write r i x => in_place m r (quiet (fun v => let* l := assign A (v_slots v) i x in Ok (V l (v_used v) (v_self v) (v_leak v))))
  | Copy r r' =>                                             (* 92-97, 189-199; reserve(0) does nothing *)
      let* v' := get m r' in
      if r =? r' then Ok (m, ONone) else
      let* o := seen m v' in
      growing m r (N.of_nat (m_used v')) (quiet (fun v => set_vec A w triv v o))
  | Move r r' =>                                             (* 80-90 *)
      let* m := mdeallocate m r in
      let* v := get m r in
      let* o := get m r' in
      let m := put m r (MV (m_el o) (m_used o) (m_cap o) (m_self o) (m_leak v)) in
      let* o := get m r' in
      Ok (put m r' (MV Nil 0 0 false (m_leak o)), ONone)
  | New r =>                                                 (* 99, then 40 *)
      let* m := mdeallocate m r in
      let* v := get m r in
      Ok (put m r (MV Nil 0 0 false (m_leak v)), ONone)
  | View r xs =>      (* 99; then a vector in a buffer that was just loaded: capacity = size, not self-allocated, nullptr if empty *)
      let* m := mdeallocate m r in
      let* v := get m r in
      match xs with
      | [] => Ok (put m r (MV Nil 0 0 false (m_leak v)), ONone)
      | _ => Ok (put (World (heap m) (bufs m ++ [map Live xs]) (vecs m)) r
                     (MV (Buf (length (bufs m))) (length xs) (length xs) false (m_leak v)), ONone)
      end
  | At r i => let* v := get m r in
              let* s := seen m v in
              match at_ A s i with Ok x => Ok (m, OVal x) | Throw => Ok (m, OThrow) | UB => UB | Fuel => Fuel end
  | Get r i => look m r (fun v => read A (v_slots v) i) OVal
  | Front r => look m r (fun v => read A (v_slots v) 0) OVal
  | Back r => look m r (fun v => if v_used v =? 0 then UB else read A (v_slots v) (v_used v - 1)) OVal
  | Size r => look m r (fun v => Ok (v_used v)) ONum
  | All r => look m r (contents A) OList
  | Eq r r' => look2 m r r' (veq A eqA)
  | Lt r r' => look2 m r r' (vlt A ltA)
  | Gt r r' => look2 m r r' (vgt A ltA)
  | Le r r' => look2 m r r' (vle A ltA)
  | Ge r r' => look2 m r r' (vge A ltA)
  end.
Fixpoint mrun (m : world) (ops : list (op A)) : res (world * list (out A)) :=
  match ops with
  | [] => Ok (m, [])
  | o :: ops => let* ' (m, x) := mstep m o in let* ' (m, xs) := mrun m ops in Ok (m, x :: xs)
  end.
End Vmem.
Arguments heap {A}. Arguments bufs {A}. Arguments vecs {A}. Arguments World {A}.
