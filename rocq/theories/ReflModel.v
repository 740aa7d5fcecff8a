(* Model of reflection/arity.h, to_tuple.h, for_each_field.h, member_index.h and printable.h: how the members of a struct
   are found. What the compiler accepts is part of the behaviour, so a struct is described by what aggregate
   initialization and structured bindings need to know about it.
   Simplified: no bit fields, anonymous unions or reference members; virtual bases and private members make a class a non-aggregate
   and never get here. *)
From Coq Require Import String Ascii.
From Verif Require Import Base.
Open Scope list_scope.

(* The type of a member. Every class, scalar, enum, pointer or std::array member is FVal: [probe] says that it can be initialized from
   detail::instance (arity.h 21-24, convertible to everything; fails for instance for classes with a constructor template that
   takes anything), [dflt] that it can be initialized from an empty list (fails for classes without default constructor).
   FArr n t: C array of n elements, which cannot be initialized from one expression. *)
Inductive fty :=
| FVal (probe dflt : bool)
| FArr (n : nat) (t : fty).

(* a struct: the data members of its base classes (C++17 aggregates may have bases), its own data members *)
Record struct := { s_bases : list (list fty); s_fields : list fty }.

(* [dcl.init.aggr]: can the member be initialized from {} *)
Fixpoint from_empty (t : fty) : bool :=
  match t with
  | FVal _ d => d
  | FArr _ t => from_empty t
  end.

(* [dcl.init.aggr]: initialize a member from the first of k remaining probes, without own braces; the number of probes that remain, None if
   that does not compile. An array takes as many as it has elements (brace elision), the rest of its elements is initialized from {}. *)
Definition times (f : nat -> option nat) : nat -> nat -> option nat :=
  fix go (n k : nat) : option nat :=
  match n with
  | 0 => Some k
  | S n => match f k with Some k' => go n k' | None => None end
  end.

Fixpoint init (t : fty) (k : nat) : option nat :=
  match k with
  | 0 => if from_empty t then Some 0 else None
  | S k' =>
    match t with
    | FVal p _ => if p then Some k' else None
    | FArr n t => times (init t) n k
    end
  end.

Fixpoint init_all (ts : list fty) (k : nat) : option nat :=
  match ts with
  | [] => Some k
  | t :: ts => match init t k with Some k' => init_all ts k' | None => None end
  end.

(* the elements of the aggregate: its bases, then its members. A base class converts from the probe as a whole. *)
Definition elements (s : struct) : list fty :=
  map (fun b => FVal true (forallb from_empty b)) (s_bases s) ++ s_fields s.

(* arity.h 36-39: does Aggregate{instance, ... k times} compile; too many initializers do not *)
Definition compiles (s : struct) (k : nat) : bool :=
  match init_all (elements s) k with Some 0 => true | _ => false end.

(* arity.h 26-41: arity_impl, adds one probe as long as that compiles *)
Fixpoint arity_impl (fuel : nat) (s : struct) (n : nat) : res nat :=
  match fuel with
  | 0 => Fuel
  | S fuel => if compiles s (n + 1) then arity_impl fuel s (n + 1) else Ok n
  end.

(* the number of probes a member can take *)
Fixpoint slots (t : fty) : nat :=
  match t with
  | FVal _ _ => 1
  | FArr n t => n * slots t
  end.
Definition slots_all (ts : list fty) : nat := list_sum (map slots ts).

(* arity.h 49-52 *)
Definition arity (s : struct) : res nat := arity_impl (S (slots_all (elements s))) s 0.

(* a member is named by the number of its class (the bases first, the struct itself last) and its number there *)
Definition member : Type := nat * nat.

Definition members_of (c : nat) (fs : list fty) : list member := map (fun i => (c, i)) (seq 0 (List.length fs)).

(* [dcl.struct.bind]: all data members have to be members of the same class; None = does not compile *)
Fixpoint bindable (c : nat) (classes : list (list fty)) : option (list member) :=
  match classes with
  | [] => Some []
  | fs :: rest =>
    match bindable (S c) rest with
    | Some l => match fs, l with
                | [], _ => Some l
                | _, [] => Some (members_of c fs)
                | _, _ => None
                end
    | None => None
    end
  end.

Definition classes (s : struct) : list (list fty) := s_bases s ++ [s_fields s].

Inductive tied := Tie (l : list member) | Ill.

(* to_tuple.h 77-523: no cista_members(): arity decides, at most 64 members, none without a binding; a binding with the wrong number
   of names does not compile *)
Definition to_tuple (s : struct) : tied :=
  match arity s with
  | Ok a =>
    if 64 <? a then Ill
    else if a =? 0 then Tie []
    else match bindable 0 (classes s) with
         | Some ms => if List.length ms =? a then Tie ms else Ill
         | None => Ill
         end
  | _ => Ill
  end.

(* ---------------- for_each_field.h ---------------- *)
Section Visit.
Context {V : Type}.

(* an object of a struct: the values of its members *)
Definition object := member -> V.

(* what for_each_field is called on: pointer (maybe null), scalar, or object of a struct (for_each_field.h 23-34) *)
Inductive target :=
| TPtr (p : option target)
| TScalar (v : V)
| TObj (s : struct) (o : object).

(* the values fn is called with, in this order; None = does not compile. A null pointer calls nothing. *)
Fixpoint for_each_field (t : target) : option (list V) :=
  match t with
  | TPtr None => Some []
  | TPtr (Some t) => for_each_field t
  | TScalar v => Some [v]
  | TObj s o => match to_tuple s with Tie ms => Some (map o ms) | Ill => None end
  end.

(* equal_to.h 60-67 for two objects of one struct: member by member, stops at the first difference *)
Variable eqv : V -> V -> bool.
Fixpoint all_equal (l : list (V * V)) : bool :=
  match l with
  | [] => true
  | (a, b) :: l => if eqv a b then all_equal l else false
  end.
Definition struct_equal (s : struct) (a b : object) : option bool :=
  match to_tuple s with
  | Tie ms => Some (all_equal (combine (map a ms) (map b ms)))
  | Ill => None
  end.

(* hashing.h 119-124: the hash of a struct folds the hashes of the members *)
Variable H : Type.
Variable combine_hash : H -> V -> H.
Definition struct_hash (s : struct) (seed : H) (o : object) : option H :=
  match to_tuple s with
  | Tie ms => Some (fold_left combine_hash (map o ms) seed)
  | Ill => None
  end.
End Visit.
Arguments target V : clear implicits.
Arguments object V : clear implicits.

(* ---------------- member_index.h 11-22 ---------------- *)
(* Every member has a type (a number) and an address. The counter i and field_index are unsigned (32 bits). *)
Definition index_step (ty addr : member -> N) (m : member) (st : N * N) (x : member) : N * N :=
  let '(i, found) := st in
  ((i + 1) mod 4294967296,
   if ((ty x =? ty m) && (addr x =? addr m))%N%bool then i else found)%N.

Definition member_index (s : struct) (ty addr : member -> N) (m : member) : option N :=
  match to_tuple s with
  | Tie ms => Some (snd (fold_left (index_step ty addr m) ms (0, 4294967295)%N))
  | Ill => None
  end.

(* ---------------- printable.h ---------------- *)
Open Scope string_scope.

(* printable.h 38-63: CISTA_PRINTABLE(class, names...): values are given as they print; the names are matched by position *)
Fixpoint print_fields (names : list string) (vals : list string) (i : nat) (first : bool) (out : string) : string :=
  match vals with
  | [] => out
  | v :: vals =>
    let out := if first then out else out ++ ", " in
    let out := if (i <? List.length names)%nat then out ++ nth i names "" ++ "=" else out in
    print_fields names vals (i + 1) false (out ++ v)
  end.
Definition print_struct (names vals : list string) : string := print_fields names vals 0 true "{" ++ "}".

Definition newline : string := String (ascii_of_nat 10) "".

(* printable.h 14-31: operator<< for std::vector *)
Fixpoint print_elements (vals : list string) (first : bool) (out : string) : string :=
  match vals with
  | [] => out
  | v :: vals => print_elements vals false ((if first then out else out ++ "," ++ newline ++ "  ") ++ v)
  end.
Definition print_vector (vals : list string) : string :=
  print_elements vals true ("[" ++ newline ++ "  ") ++ newline ++ "]".
